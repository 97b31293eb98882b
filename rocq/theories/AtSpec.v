(* What getattr and setattr are documented to do (docs/ascii-protocol, chapters 3 and 10).
   Independent of the functions of AtModel.v; shares its records and the printing of numbers. *)
From Coq Require Import String Ascii.
From Verif Require Import Base UtilModel UtilSpec ArgTypes ArgSpec AtModel.
From Verif Require BtModel BtSpec.
From Coq Require Import List ZArith NArith Lia.
Local Open Scope nat_scope.
Local Open Scope list_scope.

(* ---- names and types ---- *)
Definition word (a : aid) : bytes :=
  match a with
  | AType => txt "type" | AFlags => txt "flags" | AExpire => txt "expiretime" | ACount => txt "count"
  | AMaxcount => txt "maxcount" | AOvfl => txt "overflowaction" | AReadable => txt "readable"
  | ARange => txt "maxbkeyrange" | AMin => txt "minbkey" | AMax => txt "maxbkey" | ATrimmed => txt "trimmed"
  end.
(* the attributes of a type of item *)
Definition documented (t : ityp) : list aid :=
  match t with
  | KV => [AType; AFlags; AExpire]
  | BTREE => [AType; AFlags; AExpire; ACount; AMaxcount; AOvfl; AReadable; ARange; AMin; AMax; ATrimmed]
  | _ => [AType; AFlags; AExpire; ACount; AMaxcount; AOvfl; AReadable]
  end.

(* ---- values shown ---- *)
Definition ovfl_word (o : ovfl) : bytes :=
  match o with
  | OError => txt "error" | OHeadTrim => txt "head_trim" | OTailTrim => txt "tail_trim"
  | OSmallest => txt "smallest_trim" | OLargest => txt "largest_trim"
  | OSmallestSilent => txt "smallest_silent_trim" | OLargestSilent => txt "largest_silent_trim"
  end.
(* the numbers of the overflow actions, include/memcached/types.h 162-170 *)
Definition ovfl_code (o : ovfl) : N :=
  match o with
  | OError => 1 | OHeadTrim => 2 | OTailTrim => 3 | OSmallest => 4 | OLargest => 5
  | OSmallestSilent => 6 | OLargestSilent => 7
  end.
(* seconds left: 0 for ever, -1 sticky, -2 expired *)
Definition left (c : clock) (e : N) (v : Z) : Prop :=
  (e = 0%N /\ v = 0%Z) \/ (e = 4294967295%N /\ v = (-1)%Z) \/
  (e <> 0%N /\ e <> 4294967295%N /\
   ((Z.of_N e <= cur c)%Z /\ v = (-2)%Z \/ (cur c < Z.of_N e)%Z /\ v = (Z.of_N e - cur c)%Z)).
Definition key_shown (k : BtModel.bkey) : bytes :=
  match k with BtModel.U64 n => dec_text n | BtModel.Bin b => txt "0x" ++ safe_hexatostr b end.
(* the elements a collection may have: a number given, or what the server allows at most *)
Definition limit (z : sizes) (it : item) : Z :=
  if Z.leb (m_mcnt (i_meta it)) 0 then z (i_type it) else m_mcnt (i_meta it).
Inductive shows (z : sizes) (c : clock) (it : item) : aid -> bytes -> Prop :=
| sh_type : shows z c it AType
    match i_type it with KV => txt "kv" | LIST => txt "list" | SET => txt "set" | MAP => txt "map" | BTREE => txt "b+tree" end
| sh_flags : shows z c it AFlags (dec_text (i_flags it))
| sh_exp v : left c (i_exp it) v -> shows z c it AExpire (int_text v)
| sh_count : shows z c it ACount (int_text (m_ccnt (i_meta it)))
| sh_max : shows z c it AMaxcount (int_text (limit z it))
| sh_ovfl o : m_ovfl (i_meta it) = ovfl_code o -> shows z c it AOvfl (ovfl_word o)
| sh_on : m_read (i_meta it) = true -> shows z c it AReadable (txt "on")
| sh_off : m_read (i_meta it) = false -> shows z c it AReadable (txt "off")
| sh_norange : m_range (i_meta it) = None -> shows z c it ARange (txt "0")
| sh_range k : m_range (i_meta it) = Some k -> shows z c it ARange (key_shown k)
| sh_min : (0 < m_ccnt (i_meta it))%Z -> shows z c it AMin (key_shown (m_min (i_meta it)))
| sh_min0 : m_ccnt (i_meta it) = 0%Z -> shows z c it AMin (txt "-1")
| sh_top : (0 < m_ccnt (i_meta it))%Z -> shows z c it AMax (key_shown (m_top (i_meta it)))
| sh_top0 : m_ccnt (i_meta it) = 0%Z -> shows z c it AMax (txt "-1")
| sh_trim : m_trim (i_meta it) = true -> shows z c it ATrimmed (txt "1")
| sh_notrim : m_trim (i_meta it) = false -> shows z c it ATrimmed (txt "0").
Definition a_line (a : aid) (v : bytes) : bytes := txt "ATTR " ++ word a ++ txt "=" ++ v ++ [13%N; 10%N].

(* ---- items that occur ---- *)
Definition key_ok (k : BtModel.bkey) : Prop :=
  match k with
  | BtModel.U64 n => (n < 2 ^ 64)%N
  | BtModel.Bin b => (1 <= List.length b <= 31) /\ Forall (fun x => (x < 256)%N) b
  end.
Definition same_kind (a b : BtModel.bkey) : Prop :=
  match a, b with BtModel.U64 _, BtModel.U64 _ => True | BtModel.Bin _, BtModel.Bin _ => True | _, _ => False end.
(* the distance of two bkeys, measured with the bytes of the range r *)
Definition spans (r mn mx : BtModel.bkey) : Prop :=
  (BtSpec.measure r mx - BtSpec.measure r mn <= BtSpec.measure r r)%N.
Definition kind_code (k : BtModel.bkey) : N := match k with BtModel.U64 _ => 1%N | BtModel.Bin _ => 2%N end.
Definition ovfl_of (t : ityp) (o : ovfl) : Prop :=
  match t with
  | KV => False
  | LIST => o = OError \/ o = OHeadTrim \/ o = OTailTrim
  | BTREE => o = OError \/ o = OSmallest \/ o = OLargest \/ o = OSmallestSilent \/ o = OLargestSilent
  | _ => o = OError
  end.
Record good (z : sizes) (it : item) : Prop := {
  g_flags : (i_flags it < 2 ^ 32)%N;
  g_exp : (i_exp it < 2 ^ 31 \/ i_exp it = 4294967295)%N;
  g_size : (4000 <= z (i_type it) <= 1000000)%Z;
  g_count : i_type it <> KV -> (0 <= m_ccnt (i_meta it) <= limit z it)%Z;
  g_mcnt : i_type it <> KV -> (m_mcnt (i_meta it) <= z (i_type it))%Z;
  g_ovfl : i_type it <> KV -> exists o, ovfl_of (i_type it) o /\ m_ovfl (i_meta it) = ovfl_code o;
  g_keys : i_type it = BTREE -> (0 < m_ccnt (i_meta it))%Z ->
    key_ok (m_min (i_meta it)) /\ key_ok (m_top (i_meta it)) /\ same_kind (m_min (i_meta it)) (m_top (i_meta it)) /\
    m_bktype (i_meta it) = kind_code (m_min (i_meta it)) /\
    (m_ccnt (i_meta it) = 1%Z -> m_min (i_meta it) = m_top (i_meta it)) /\
    BtSpec.klt (m_top (i_meta it)) (m_min (i_meta it)) = false;
  g_range : forall r, i_type it = BTREE -> m_range (i_meta it) = Some r -> key_ok r /\
    ((0 < m_ccnt (i_meta it))%Z -> same_kind r (m_min (i_meta it)) /\ spans r (m_min (i_meta it)) (m_top (i_meta it)))
}.

(* ---- setattr ---- *)
Inductive change := CExpire (e : Z) | CMax (n : Z) | COvfl (o : ovfl) | CReadable | CRange (r : option BtModel.bkey).
Inductive range_arg : bytes -> option BtModel.bkey -> Prop :=
| ra_int s n : bkey_arg s (BInt n) -> n <> 0%N -> range_arg s (Some (BtModel.U64 n))
| ra_zero s : bkey_arg s (BInt 0) -> range_arg s None
| ra_hex s b : bkey_arg s (BHex b) -> range_arg s (Some (BtModel.Bin b)).
(* one word of the line *)
Inductive asks : bytes -> change -> Prop :=
| k_exp v e : num_i64 v e -> asks (txt "expiretime=" ++ v) (CExpire e)
| k_max v n : num_i32 v n -> asks (txt "maxcount=" ++ v) (CMax n)
| k_ovfl o : asks (txt "overflowaction=" ++ ovfl_word o) (COvfl o)
| k_read : asks (txt "readable=on") CReadable
| k_range v r : range_arg v r -> asks (txt "maxbkeyrange=" ++ v) (CRange r).
(* which items have the attribute *)
Definition has (t : ityp) (ch : change) : Prop :=
  match ch with CExpire _ => True | CRange _ => t = BTREE | _ => t <> KV end.

(* when a word is repeated, the last one counts *)
Fixpoint final {A} (f : change -> option A) (cs : list change) : option A :=
  match cs with
  | [] => None
  | c :: r => match final f r with Some x => Some x | None => f c end
  end.
Definition new_exp := final (fun c => match c with CExpire e => Some e | _ => None end).
Definition new_max := final (fun c => match c with CMax n => Some n | _ => None end).
Definition new_ovfl := final (fun c => match c with COvfl o => Some o | _ => None end).
Definition new_range := final (fun c => match c with CRange r => Some r | _ => None end).
Definition made_readable (cs : list change) : bool := existsb (fun c => match c with CReadable => true | _ => false end) cs.

(* the limit that is meant by a number: none, the default, or at most what the server allows *)
Definition wanted (z : sizes) (t : ityp) (n : Z) : Z :=
  if Z.ltb n 0 then (-1)%Z else if Z.eqb n 0 then 4000%Z else Z.min n (z t).
(* values which are refused *)
Definition fine (z : sizes) (it : item) (cs : list change) : Prop :=
  (forall e, new_exp cs = Some e -> (i_exp it = 4294967295%N <-> e = (-1)%Z)) /\
  (i_type it <> KV -> forall n, new_max cs = Some n -> (n < 0 \/ m_ccnt (i_meta it) <= wanted z (i_type it) n)%Z) /\
  (i_type it <> KV -> forall o, new_ovfl cs = Some o -> ovfl_of (i_type it) o) /\
  (i_type it = BTREE -> forall r, new_range cs = Some (Some r) -> (0 < m_ccnt (i_meta it))%Z ->
     same_kind r (m_min (i_meta it)) /\ spans r (m_min (i_meta it)) (m_top (i_meta it))).

(* when an item expires that is given the number e: 0 never, -1 never and not evicted, another negative
   number at once, up to 30 days from now, otherwise a unix time (counted from the start of the server,
   at most 2^31-1) *)
Definition due (c : clock) (e : Z) : N :=
  if Z.eqb e 0 then 0%N
  else if Z.eqb e (-1) then 4294967295%N
  else if Z.ltb e 0 then 1%N
  else if Z.leb e 2592000 then Z.to_N (cur c + e)
  else Z.to_N (Z.max 1 (Z.min (e - started c) 2147483647)).
(* the clock of a server that has been up for less than 68 years less 30 days; the time counts from two
   seconds before the start *)
Definition clock_ok (c : clock) : Prop := (1 <= cur c < 2 ^ 31 - 2592000)%Z /\ (0 <= started c)%Z.
(* what the item is afterwards: everything else stays *)
Definition btree (it : item) : bool := match i_type it with BTREE => true | _ => false end.
Definition after (z : sizes) (c : clock) (it : item) (cs : list change) : item :=
  let m := i_meta it in
  mkI (i_type it) (i_flags it)
    (match new_exp cs with Some e => due c e | None => i_exp it end)
    (match i_type it with
     | KV => m
     | t =>
         mkM (match new_max cs with Some n => wanted z t n | None => m_mcnt m end)
             (m_ccnt m)
             (match new_ovfl cs with Some o => ovfl_code o | None => m_ovfl m end)
             (m_read m || made_readable cs)
             (m_trim m && negb (btree it && match new_ovfl cs with Some o => negb (N.eqb (ovfl_code o) (m_ovfl m)) | None => false end))
             (if (btree it && Z.eqb (m_ccnt m) 0)%bool then
                match new_range cs with
                | Some (Some r) => kind_code r
                | Some None => match m_range m with Some _ => 0%N | None => m_bktype m end
                | None => m_bktype m
                end
              else m_bktype m)
             (if btree it then match new_range cs with Some r => r | None => m_range m end else m_range m)
             (m_min m) (m_top m)
     end).
