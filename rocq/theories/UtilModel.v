(* Model of /repo/util.c (number parsing, hexadecimal text, name check, glob match)
   and of the scan pattern validation of /repo/memcached.c.
   A C string argument is modelled by the list of its bytes before the terminating
   NUL; reading at the end of the list yields the NUL byte (0). *)
From Verif Require Import Base.
Open Scope N_scope.

(* isspace() of the C locale: \t \n \v \f \r and blank.  Used in util.c 38,61,81,105. *)
Definition isspace (c : N) : bool := ((9 <=? c) && (c <=? 13)) || (c =? 32).
Definition isdigit (c : N) : bool := (48 <=? c) && (c <=? 57).

(* ---- strtoull/strtoll(str, &endptr, 10) of the C library (C11 7.22.1.4), as used in
   util.c 35,58,76,102.  The result is the sign, the magnitude and the remaining text;
   None when no digits were found (then endptr == str and the value is 0). *)
Fixpoint skip_space (s : bytes) : bytes :=
  match s with
  | c :: s' => if isspace c then skip_space s' else s
  | [] => []
  end.

Definition take_sign (s : bytes) : bool * bytes :=
  match s with
  | c :: s' => if c =? 45 then (true, s') else if c =? 43 then (false, s') else (false, s)
  | [] => (false, [])
  end.

(* digits consumed (most significant first) accumulated in acc *)
Fixpoint take_digits (acc : N) (s : bytes) : N * bytes :=
  match s with
  | c :: s' => if isdigit c then take_digits (10 * acc + (c - 48)) s' else (acc, s)
  | [] => (acc, [])
  end.

Definition starts_digit (s : bytes) : bool :=
  match s with c :: _ => isdigit c | [] => false end.

Definition strto (s : bytes) : option (bool * N * bytes) :=
  let '(neg, s1) := take_sign (skip_space s) in
  if starts_digit s1 then
    let '(m, rest) := take_digits 0 s1 in Some (neg, m, rest)
  else None.

Definition two64 : N := 2 ^ 64.
Definition two63 : N := 2 ^ 63.
Definition two32 : N := 2 ^ 32.
Definition two31 : N := 2 ^ 31.

(* *endptr is white space, or it is NUL and something was consumed: util.c 38,61,81,105.
   [consumed] is (endptr != str). *)
Definition end_ok (rest : bytes) (consumed : bool) : bool :=
  match rest with
  | c :: _ => isspace c
  | [] => consumed
  end.

(* strchr(str, '-') != NULL : util.c 43,86 *)
Definition has_minus (s : bytes) : bool := existsb (fun c => c =? 45) s.

(* util.c 30-51 safe_strtoull; None is the result false. *)
Definition safe_strtoull (s : bytes) : option N :=
  match strto s with
  | Some (neg, m, rest) =>
      if two64 <=? m then None (* ERANGE *)
      else
        let ull := if neg then (two64 - m) mod two64 else m in
        if end_ok rest true then
          if (two63 <=? ull) && has_minus s then None else Some ull
        else None
  | None => if end_ok s false then Some 0 else None
  end.

(* util.c 53-66 safe_strtoll *)
Definition safe_strtoll (s : bytes) : option Z :=
  match strto s with
  | Some (neg, m, rest) =>
      let v := if neg then Z.opp (Z.of_N m) else Z.of_N m in
      if ((v <? - 2 ^ 63) || (2 ^ 63 <=? v))%Z then None (* ERANGE *)
      else if end_ok rest true then Some v else None
  | None => if end_ok s false then Some 0%Z else None
  end.

(* util.c 68-95 safe_strtoul, unsigned long is 64 bits (LP64). *)
Definition safe_strtoul (s : bytes) : option N :=
  match strto s with
  | Some (neg, m, rest) =>
      if two64 <=? m then None (* ERANGE *)
      else
        let l := if neg then (two64 - m) mod two64 else m in
        if two32 <=? l then None
        else if end_ok rest true then
          if (two63 <=? l) && has_minus s then None else Some l
        else None
  | None => if end_ok s false then Some 0 else None
  end.

(* util.c 97-110 safe_strtol, long is 64 bits. *)
Definition safe_strtol (s : bytes) : option Z :=
  match strto s with
  | Some (neg, m, rest) =>
      let v := if neg then Z.opp (Z.of_N m) else Z.of_N m in
      if ((v <? - 2 ^ 31) || (2 ^ 31 <=? v))%Z then None (* ERANGE or out of int32 *)
      else if end_ok rest true then Some v else None
  | None => if end_ok s false then Some 0%Z else None
  end.

(* snprintf("%"PRIu64) : decimal text of a number (items.c 261 in do_add_delta, 378 in item_arithmetic). *)
Fixpoint dec_digits (fuel : nat) (n : N) (acc : bytes) : bytes :=
  match fuel with
  | O => acc
  | S f =>
      let acc' := (48 + n mod 10) :: acc in
      if n / 10 =? 0 then acc' else dec_digits f (n / 10) acc'
  end.
Definition dec_text (n : N) : bytes := dec_digits (S (N.to_nat (N.size n))) n [].

(* ---- util.c 127-147 safe_strtohexa: None is false, otherwise the bytes written to bin. *)
Definition hexval (c : N) : option N :=
  if (48 <=? c) && (c <=? 57) then Some (c - 48)
  else if (65 <=? c) && (c <=? 70) then Some (c - 65 + 10)
  else if (97 <=? c) && (c <=? 102) then Some (c - 97 + 10)
  else None.

Fixpoint hex_loop (s : bytes) : option bytes :=
  match s with
  | c1 :: c2 :: s' =>
      match hexval c1 with
      | None => None
      | Some h =>
          match hexval c2 with
          | None => None
          | Some l =>
              match hex_loop s' with
              | None => None
              | Some r => Some ((N.shiftl h 4 + l) mod 256 :: r)
              end
          end
      end
  | _ => Some []
  end.

Definition safe_strtohexa (s : bytes) (size : N) : option bytes :=
  let slen := N.of_nat (length s) in
  if (slen =? 0) || (2 * size <? slen) || negb (slen mod 2 =? 0) then None
  else hex_loop s.

(* util.c 149-161 safe_hexatostr *)
Definition hexchar (d : N) : N := if d <? 10 then d + 48 else d + (65 - 10).
Fixpoint safe_hexatostr (bin : bytes) : bytes :=
  match bin with
  | [] => []
  | b :: r => hexchar (N.shiftr (N.land b 0xF0) 4) :: hexchar (N.land b 0x0F) :: safe_hexatostr r
  end.

(* ---- util.c 164-187 mc_isvalidname *)
Definition mc_isnamechar (c : N) : bool :=
  ((97 <=? c) && (c <=? 122)) || ((65 <=? c) && (c <=? 90)) || ((48 <=? c) && (c <=? 57))
  || (c =? 95) || (c =? 45) || (c =? 43) || (c =? 46).
Definition mc_isvalidname (s : bytes) : bool :=
  match s with
  | c :: _ => if c =? 45 then false else forallb mc_isnamechar s
  | [] => true
  end.

(* ---- util.c 206-221 mc_swap64 (little endian branch): 8 rounds of rv = (rv<<8)|(in&0xff), in >>= 8 *)
Fixpoint swap_loop (n : nat) (rv inp : N) : N :=
  match n with
  | O => rv
  | S n' => swap_loop n' (N.lor ((N.shiftl rv 8) mod two64) (N.land inp 255)) (N.shiftr inp 8)
  end.
Definition mc_swap64 (x : N) : N := swap_loop 8 0 x.

(* ---- util.c 282-331 string_pattern_match.
   [text] holds exactly text_len bytes.  [pat] holds exactly pattern_len bytes and is
   followed in memory by NUL (the pattern is a NUL terminated command token,
   memcached.c 10174).  The C code reads *pattern (and *(pattern+1)) without looking at
   pattern_len: reads of the NUL are modelled by hd 0; moving the pattern pointer past the
   NUL is modelled by the outcome GlobUB. *)
Inductive glob_result := GlobYes | GlobNo | GlobUB | GlobFuel.

Fixpoint drop_stars (p : bytes) : bytes :=
  match p with
  | c :: p' => if c =? 42 then drop_stars p' else p
  | [] => []
  end.

Definition rd (k : nat) (p : bytes) : N := nth k p 0. (* k <= length p: the NUL is readable *)

Fixpoint glob_loop (fuel : nat) (t p : bytes) (backup : option (bytes * bytes)) : glob_result :=
  match fuel with
  | O => GlobFuel
  | S f =>
      match t with
      | [] => (* lines 324-330 *)
          match drop_stars p with [] => GlobYes | _ :: _ => GlobNo end
      | c :: t' =>
          if (rd 0 p =? 92) && (rd 1 p =? c) then       (* lines 290-295 *)
            match p with
            | _ :: _ :: p' => glob_loop f t' p' backup
            | _ => GlobUB
            end
          else if rd 0 p =? 42 then                       (* lines 296-302 *)
            match p with
            | _ :: p' => glob_loop f t p' (Some (t, p'))
            | [] => GlobUB
            end
          else if (rd 0 p =? 63) || (rd 0 p =? c) then    (* lines 303-309 *)
            match p with
            | _ :: p' => glob_loop f t' p' backup
            | [] => GlobUB
            end
          else                                            (* lines 310-322 *)
            match backup with
            | None => GlobNo
            | Some ([], pb) => GlobUB
            | Some (_ :: tb, pb) => glob_loop f tb pb (Some (tb, pb))
            end
      end
  end.

(* Enough fuel: the pair (remaining text at the backup, remaining text and pattern)
   decreases lexicographically (glob_total in UtilProofs.v shows GlobFuel never occurs). *)
Definition glob_fuel (t p : bytes) : nat :=
  S (S (length t) * (length t + length p + 1) + length t + length p).
Definition string_pattern_match (t p : bytes) : glob_result := glob_loop (glob_fuel t p) t p None.

(* memcached.c 9938-9962 scan_validate_pattern (limits 4 stars, 64 bytes: 9938,9939) *)
Fixpoint validate_loop (p : bytes) (starcnt : N) : bool :=
  match p with
  | [] => true
  | c :: p' =>
      if c =? 92 then
        match p' with
        | [] => false
        | d :: p'' => if (d =? 42) || (d =? 63) || (d =? 92) then validate_loop p'' starcnt else false
        end
      else if c =? 42 then
        if 4 <? starcnt + 1 then false else validate_loop p' (starcnt + 1)
      else validate_loop p' starcnt
  end.
Definition scan_validate_pattern (p : bytes) : bool :=
  let patlen := N.of_nat (length p) in
  if (patlen =? 0) || (64 <? patlen) then false else validate_loop p 0.
