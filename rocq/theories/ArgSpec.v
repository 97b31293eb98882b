(* The grammar of the collection commands, independent of the parser: which lines are requests
   and which request each of them is.  docs/ascii-protocol ch02, ch03, ch05-ch08.  A line is the
   list of its tokens.  Numbers are as in C33 (UtilSpec.v): the relation says exactly which
   texts count as numbers, white space oddities included. *)
From Coq Require Import String Ascii.
From Verif Require Import Base UtilSpec ArgTypes.
From Coq Require Import List ZArith NArith.
Local Open Scope nat_scope.
Local Open Scope list_scope.

(* ---- numbers ---- *)
Definition no_number (s : bytes) : Prop :=
  (forall neg m rest, ~ reads_number s neg m rest) /\ (exists c r, s = c :: r /\ is_space c).
Definition num_u64 (s : bytes) (v : N) : Prop :=
  (exists neg m rest, reads_number s neg m rest /\ terminated rest /\ (m < 2 ^ 64)%N /\
     v = (if neg then (2 ^ 64 - m) mod 2 ^ 64 else m)%N /\ ((2 ^ 63 <= v)%N -> ~ In 45%N s))
  \/ (no_number s /\ v = 0%N).
Definition num_u32 (s : bytes) (v : N) : Prop :=
  (exists neg m rest, reads_number s neg m rest /\ terminated rest /\ (m < 2 ^ 64)%N /\
     v = (if neg then (2 ^ 64 - m) mod 2 ^ 64 else m)%N /\ (v < 2 ^ 32)%N)
  \/ (no_number s /\ v = 0%N).
Definition num_i64 (s : bytes) (v : Z) : Prop :=
  (exists neg m rest, reads_number s neg m rest /\ terminated rest /\
     v = (if neg then - Z.of_N m else Z.of_N m)%Z /\ (- 2 ^ 63 <= v < 2 ^ 63)%Z)
  \/ (no_number s /\ v = 0%Z).
Definition num_i32 (s : bytes) (v : Z) : Prop :=
  (exists neg m rest, reads_number s neg m rest /\ terminated rest /\
     v = (if neg then - Z.of_N m else Z.of_N m)%Z /\ (- 2 ^ 31 <= v < 2 ^ 31)%Z)
  \/ (no_number s /\ v = 0%Z).

(* ---- bkeys, eflags, ranges ---- *)
(* 0x and 1 to 31 bytes in hexadecimal *)
Definition hex_arg (s b : bytes) : Prop :=
  exists t, s = 48%N :: 120%N :: t /\ t <> [] /\ hex_text t b /\ List.length b <= 31.

Inductive bkey_arg : bytes -> bkey -> Prop :=
| ba_hex s b : hex_arg s b -> bkey_arg s (BHex b)
| ba_int s n : num_u64 s n -> bkey_arg s (BInt n).

(* s is a ".." b, and this is the first ".." in s *)
Definition first_dots (s a b : bytes) : Prop :=
  s = a ++ 46%N :: 46%N :: b /\
  forall x y, s = x ++ 46%N :: 46%N :: y -> List.length a <= List.length x.
Definition no_dots (s : bytes) : Prop := forall x y, s <> x ++ 46%N :: 46%N :: y.

Inductive range_arg : bytes -> range -> Prop :=
| ra_hex s x y a b : first_dots s x y -> hex_arg x a -> hex_arg y b ->
    range_arg s (Range (BHex a) (BHex b))
| ra_int s x y a b : first_dots s x y -> num_u64 x a -> num_u64 y b ->
    range_arg s (Range (BInt a) (BInt b))
| ra_one s b : no_dots s -> bkey_arg s b -> range_arg s (Single b).

Inductive pos_arg : bytes -> N * N -> Prop :=
| pa_two s x y a b : first_dots s x y -> num_u32 x a -> num_u32 y b -> pos_arg s (a, b)
| pa_one s a : no_dots s -> num_u32 s a -> pos_arg s (a, a).
Inductive index_arg : bytes -> Z * Z -> Prop :=
| ia_two s x y a b : first_dots s x y -> num_i32 x a -> num_i32 y b -> index_arg s (a, b)
| ia_one s a : no_dots s -> num_i32 s a -> index_arg s (a, a).

(* ---- eflag filters ---- *)
Inductive cmp_arg : bytes -> N -> Prop :=
| c_eq : cmp_arg (txt "EQ") 0 | c_ne : cmp_arg (txt "NE") 1 | c_lt : cmp_arg (txt "LT") 2
| c_le : cmp_arg (txt "LE") 3 | c_gt : cmp_arg (txt "GT") 4 | c_ge : cmp_arg (txt "GE") 5.
Inductive bitw_arg : bytes -> N -> Prop :=
| b_and : bitw_arg (txt "&") 0 | b_or : bitw_arg (txt "|") 1 | b_xor : bitw_arg (txt "^") 2.

(* the non-empty pieces between the commas *)
Inductive commas : bytes -> list bytes -> Prop :=
| cm_nil : commas [] []
| cm_sep s l : commas s l -> commas (44%N :: s) l
| cm_last p : p <> [] -> ~ In 44%N p -> commas p [p]
| cm_piece p s l : p <> [] -> ~ In 44%N p -> commas s l -> commas (p ++ 44%N :: s) (p :: l).

(* the values of a filter, all of n bytes: up to a hundred for EQ and NE, otherwise one *)
Inductive vals_arg (n : nat) : N -> bytes -> list bytes -> Prop :=
| va_list op t v vs ps : v = 48%N :: 120%N :: t -> op = 0%N \/ op = 1%N -> commas v ps ->
    Forall2 hex_arg ps vs -> Forall (fun b => List.length b = n) vs ->
    List.length vs <= 100 -> vals_arg n op v vs
| va_one op v b : op <> 0%N -> op <> 1%N -> hex_arg v b -> List.length b = n -> vals_arg n op v [b].

Inductive filter_toks : list bytes -> filt -> Prop :=
| ft_plain o off c op v vs n :
    num_u32 o off -> (off < 31)%N -> cmp_arg c op -> vals_arg n op v vs ->
    N.to_nat off + n <= 31 ->
    filter_toks [o; c; v] {| f_off := off; f_bitw := None; f_cmp := op; f_vals := vs |}
| ft_bitw o off b bop w wb c op v vs :
    num_u32 o off -> (off < 31)%N -> bitw_arg b bop -> hex_arg w wb -> cmp_arg c op ->
    vals_arg (List.length wb) op v vs -> N.to_nat off + List.length wb <= 31 ->
    filter_toks [o; b; w; c; v] {| f_off := off; f_bitw := Some (bop, wb); f_cmp := op; f_vals := vs |}.
Inductive filter_opt : list bytes -> option filt -> Prop :=
| fo_none : filter_opt [] None
| fo_some ft f : filter_toks ft f -> filter_opt ft (Some f).

(* ---- attributes of a new collection ---- *)
Inductive ovfl_arg : ctype -> bytes -> ovfl -> Prop :=
| ov_err t : ovfl_arg t (txt "error") OError
| ov_ht : ovfl_arg TList (txt "head_trim") OHeadTrim
| ov_tt : ovfl_arg TList (txt "tail_trim") OTailTrim
| ov_st : ovfl_arg TBtree (txt "smallest_trim") OSmallest
| ov_lt : ovfl_arg TBtree (txt "largest_trim") OLargest
| ov_ss : ovfl_arg TBtree (txt "smallest_silent_trim") OSmallestSilent
| ov_ls : ovfl_arg TBtree (txt "largest_silent_trim") OLargestSilent.

Definition mk_attr (f : N) (e c : Z) (o : option ovfl) (r : bool) : attr :=
  {| a_flags := f; a_exptime := e; a_maxcount := c; a_ovfl := o; a_readable := r |}.
(* flags, exptime, maxcount, [overflow action], [unreadable]; maxcount or both it and exptime may
   be missing when nothing follows (arcus 1.5, see 10487) *)
Inductive attr_toks (t : ctype) : list bytes -> attr -> Prop :=
| at1 f fl : num_u32 f fl -> attr_toks t [f] (mk_attr fl 0 0 None true)
| at2 f fl e ex : num_u32 f fl -> num_i64 e ex -> attr_toks t [f; e] (mk_attr fl ex 0 None true)
| at3 f fl e ex c cn : num_u32 f fl -> num_i64 e ex -> num_i32 c cn ->
    attr_toks t [f; e; c] (mk_attr fl ex cn None true)
| at4 f fl e ex c cn o ov : num_u32 f fl -> num_i64 e ex -> num_i32 c cn -> ovfl_arg t o ov ->
    attr_toks t [f; e; c; o] (mk_attr fl ex cn (Some ov) true)
| at4u f fl e ex c cn : num_u32 f fl -> num_i64 e ex -> num_i32 c cn ->
    attr_toks t [f; e; c; txt "unreadable"] (mk_attr fl ex cn None false)
| at5 f fl e ex c cn o ov : num_u32 f fl -> num_i64 e ex -> num_i32 c cn -> ovfl_arg t o ov ->
    attr_toks t [f; e; c; o; txt "unreadable"] (mk_attr fl ex cn (Some ov) false).
Inductive create_opt (t : ctype) : list bytes -> option attr -> Prop :=
| co_none : create_opt t [] None
| co_some at_ a : attr_toks t at_ a -> create_opt t (txt "create" :: at_) (Some a).

(* ---- words ---- *)
Inductive mode_opt : list bytes -> mode -> Prop :=
| mo_none : mode_opt [] Reply
| mo_noreply : mode_opt [txt "noreply"] NoReply
| mo_pipe : mode_opt [txt "pipe"] Pipe.
Inductive drop_opt : list bytes -> bool -> Prop :=
| do_none : drop_opt [] false
| do_drop : drop_opt [txt "drop"] true.
Inductive take_opt : list bytes -> take -> Prop :=
| ta_keep : take_opt [] Keep
| ta_delete : take_opt [txt "delete"] Delete
| ta_drop : take_opt [txt "drop"] Drop.
Inductive order_arg : bytes -> order -> Prop :=
| or_asc : order_arg (txt "asc") Asc
| or_desc : order_arg (txt "desc") Desc.
Inductive count_opt : list bytes -> N -> Prop :=
| ct_none : count_opt [] 0
| ct_some s n : num_u32 s n -> count_opt [s] n.
(* [[offset] count] *)
Inductive offcount_opt : list bytes -> N -> N -> Prop :=
| oc_none : offcount_opt [] 0 0
| oc_count s n : num_u32 s n -> offcount_opt [s] 0 n
| oc_both s n t k : num_u32 s n -> num_u32 t k -> offcount_opt [s; t] n k.
Inductive eflag_opt : list bytes -> bytes -> Prop :=
| eo_none : eflag_opt [] []
| eo_some s b : hex_arg s b -> eflag_opt [s] b.
Inductive smode_opt : list bytes -> smode -> Prop :=
| sm_none : smode_opt [] OldMode
| sm_dup : smode_opt [txt "duplicate"] Duplicate
| sm_uni : smode_opt [txt "unique"] Unique.

(* length of a value: INT_MAX - 2 at most *)
Definition vlen_arg (s : bytes) (v : Z) : Prop := num_i32 s v /\ (0 <= v <= 2147483645)%Z.
(* number and total length of field names: nothing at all, or room for so many names *)
Definition fields_ok (max_map lenf numf : N) : Prop :=
  (lenf = 0 /\ numf = 0)%N \/
  (0 < lenf <= 4294967293 /\ 0 < numf <= max_map /\ numf <= lenf / 2 + 1 /\ lenf <= numf * 251 - 1)%N.
Definition keys_ok (maxkeys lenk numk : N) : Prop :=
  (0 < lenk <= 4294967293 /\ 0 < numk <= maxkeys /\ numk <= lenk / 2 + 1 /\ lenk <= numk * 16001 - 1)%N.

(* the eflag part of bop update: a new eflag, 0 for none, or a change of a part *)
Inductive upd_flag : bytes -> bytes -> Prop :=
| uf_hex s b : hex_arg s b -> upd_flag s b
| uf_zero s : num_i32 s 0 -> upd_flag s [].
Inductive upd_opt : list bytes -> option eupd -> Prop :=
| uo_none : upd_opt [] None
| uo_all s b : upd_flag s b -> upd_opt [s] (Some {| u_part := None; u_flag := b |})
| uo_part o off w op s b : num_u32 o off -> (off < 31)%N -> bitw_arg w op -> upd_flag s b ->
    upd_opt [o; w; s] (Some {| u_part := Some (off, op); u_flag := b |}).
Inductive init_opt : list bytes -> option (N * option bytes) -> Prop :=
| io_none : init_opt [] None
| io_num s n : num_u64 s n -> init_opt [s] (Some (n, None))
| io_flag s n e b : num_u64 s n -> hex_arg e b -> init_opt [s; e] (Some (n, Some b)).

(* ---- the documented commands ---- *)
Inductive coll_word : ctype -> bytes -> Prop :=
| cw_l : coll_word TList (txt "lop") | cw_s : coll_word TSet (txt "sop")
| cw_m : coll_word TMap (txt "mop") | cw_b : coll_word TBtree (txt "bop").

Inductive syntax (max_map : N) : list bytes -> req -> Prop :=
| x_create t w key at_ a mt m : coll_word t w -> attr_toks t at_ a ->
    mode_opt mt m -> m <> Pipe -> 3 <= List.length at_ ->
    syntax max_map (w :: txt "create" :: key :: at_ ++ mt) (Create t key a m)
| x_linsert key i ix v vlen ct cr mt m : num_i32 i ix -> vlen_arg v vlen ->
    create_opt TList ct cr -> mode_opt mt m ->
    syntax max_map (txt "lop" :: txt "insert" :: key :: i :: v :: ct ++ mt) (LInsert key ix vlen cr m)
| x_ldelete key r fr dt d mt m : index_arg r fr -> drop_opt dt d -> mode_opt mt m ->
    syntax max_map (txt "lop" :: txt "delete" :: key :: r :: dt ++ mt) (LDelete key (fst fr) (snd fr) d m)
| x_lget key r fr tt t : index_arg r fr -> take_opt tt t ->
    syntax max_map (txt "lop" :: txt "get" :: key :: r :: tt) (LGet key (fst fr) (snd fr) t)
| x_sinsert key v vlen ct cr mt m : vlen_arg v vlen -> create_opt TSet ct cr -> mode_opt mt m ->
    syntax max_map (txt "sop" :: txt "insert" :: key :: v :: ct ++ mt) (SInsert key vlen cr m)
| x_sdelete key v vlen dt d mt m : vlen_arg v vlen -> drop_opt dt d -> mode_opt mt m ->
    syntax max_map (txt "sop" :: txt "delete" :: key :: v :: dt ++ mt) (SDelete key vlen d m)
| x_sexist key v vlen mt m : vlen_arg v vlen -> mode_opt mt m -> m <> NoReply ->
    syntax max_map (txt "sop" :: txt "exist" :: key :: v :: mt) (SExist key vlen m)
| x_sget key c count tt t : num_u32 c count -> (count <= 1000)%N -> take_opt tt t ->
    syntax max_map (txt "sop" :: txt "get" :: key :: c :: tt) (SGet key count t)
| x_minsert w up key field v vlen ct cr mt m :
    (w = txt "insert" /\ up = false) \/ (w = txt "upsert" /\ up = true) ->
    List.length field <= 250 -> vlen_arg v vlen -> create_opt TMap ct cr -> mode_opt mt m ->
    syntax max_map (txt "mop" :: w :: key :: field :: v :: ct ++ mt) (MInsert up key field vlen cr m)
| x_mupdate key field v vlen mt m : List.length field <= 250 -> vlen_arg v vlen -> mode_opt mt m ->
    syntax max_map (txt "mop" :: txt "update" :: key :: field :: v :: mt) (MUpdate key field vlen m)
| x_mdelete key l lenf n numf dt d mt m : num_u32 l lenf -> num_u32 n numf -> fields_ok max_map lenf numf ->
    drop_opt dt d -> mode_opt mt m ->
    syntax max_map (txt "mop" :: txt "delete" :: key :: l :: n :: dt ++ mt) (MDelete key lenf numf d m)
| x_mget key l lenf n numf tt t : num_u32 l lenf -> num_u32 n numf -> fields_ok max_map lenf numf ->
    take_opt tt t ->
    syntax max_map (txt "mop" :: txt "get" :: key :: l :: n :: tt) (MGet key lenf numf t)
| x_binsert w up key b bk et ef v vlen ct cr mt m :
    (w = txt "insert" /\ up = false) \/ (w = txt "upsert" /\ up = true) ->
    bkey_arg b bk -> eflag_opt et ef -> vlen_arg v vlen -> create_opt TBtree ct cr -> mode_opt mt m ->
    syntax max_map (txt "bop" :: w :: key :: b :: et ++ v :: ct ++ mt) (BInsert up key bk ef vlen cr false m)
| x_bgetrim w up key b bk et ef v vlen ct cr :
    (w = txt "insert" /\ up = false) \/ (w = txt "upsert" /\ up = true) ->
    bkey_arg b bk -> eflag_opt et ef -> vlen_arg v vlen -> create_opt TBtree ct cr ->
    syntax max_map (txt "bop" :: w :: key :: b :: et ++ v :: ct ++ [txt "getrim"])
                   (BInsert up key bk ef vlen cr true Reply)
| x_bupdate key b bk ut u v vlen mt m : range_arg b (Single bk) -> upd_opt ut u ->
    num_i32 v vlen -> (-1 <= vlen <= 2147483645)%Z -> mode_opt mt m ->
    syntax max_map (txt "bop" :: txt "update" :: key :: b :: ut ++ v :: mt) (BUpdate key bk u vlen m)
| x_bdelete key b r ft f ct count dt d mt m : range_arg b r -> filter_opt ft f ->
    count_opt ct count -> drop_opt dt d -> mode_opt mt m ->
    syntax max_map (txt "bop" :: txt "delete" :: key :: b :: ft ++ ct ++ dt ++ mt) (BDelete key r f count d m)
| x_barith w inc key b bk d delta it init mt m :
    (w = txt "incr" /\ inc = true) \/ (w = txt "decr" /\ inc = false) ->
    range_arg b (Single bk) -> num_u64 d delta -> (1 <= delta)%N -> init_opt it init -> mode_opt mt m ->
    syntax max_map (txt "bop" :: w :: key :: b :: d :: it ++ mt) (BArith inc key bk delta init m)
| x_bget key b r ft f ot off count tt t : range_arg b r -> filter_opt ft f ->
    offcount_opt ot off count -> take_opt tt t ->
    syntax max_map (txt "bop" :: txt "get" :: key :: b :: ft ++ ot ++ tt) (BGet key r f off count t)
| x_bcount key b r ft f : range_arg b r -> filter_opt ft f ->
    syntax max_map (txt "bop" :: txt "count" :: key :: b :: ft) (BCount key r f)
| x_bmget l lenk n numk b r ft f ot off c count :
    num_u32 l lenk -> num_u32 n numk -> keys_ok 200 lenk numk -> range_arg b r -> filter_opt ft f ->
    count_opt ot off -> num_u32 c count -> (1 <= count <= 50)%N ->
    syntax max_map (txt "bop" :: txt "mget" :: l :: n :: b :: ft ++ ot ++ [c]) (BMget lenk numk r f off count)
| x_bsmget l lenk n numk b r ft f ot off c count st s :
    num_u32 l lenk -> num_u32 n numk -> keys_ok 10000 lenk numk -> range_arg b r -> filter_opt ft f ->
    count_opt ot off -> num_u32 c count -> (1 <= count)%N -> (off + count <= 2000)%N -> smode_opt st s ->
    syntax max_map (txt "bop" :: txt "smget" :: l :: n :: b :: ft ++ ot ++ c :: st)
                   (BSmget lenk numk r f off count s)
| x_bposition key b bk o od : range_arg b (Single bk) -> order_arg o od ->
    syntax max_map [txt "bop"; txt "position"; key; b; o] (BPosition key bk od)
| x_bpwg key b bk o od ct count : range_arg b (Single bk) -> order_arg o od -> count_opt ct count ->
    (count <= 100)%N ->
    syntax max_map (txt "bop" :: txt "pwg" :: key :: b :: o :: ct) (BPwg key bk od count)
| x_bgbp key o od p ps : order_arg o od -> pos_arg p ps ->
    syntax max_map [txt "bop"; txt "gbp"; key; o; p] (BGbp key od (fst ps) (snd ps)).

(* ---- lines which are accepted as well, though no document allows them ---- *)
Definition no_mode (g : bytes) : Prop := g <> txt "noreply" /\ g <> txt "pipe".
Inductive lax (max_map : N) : list bytes -> req -> Prop :=
(* two attributes, but only with noreply *)
| l_create t w key f fl e ex : coll_word t w -> num_u32 f fl -> num_i64 e ex ->
    lax max_map [w; txt "create"; key; f; e; txt "noreply"] (Create t key (mk_attr fl ex 0 None true) NoReply)
(* a meaningless last word is ignored *)
| l_sexist key v vlen g : vlen_arg v vlen -> g <> txt "pipe" ->
    lax max_map [txt "sop"; txt "exist"; key; v; g] (SExist key vlen Reply)
| l_mupdate key field v vlen g : List.length field <= 250 -> vlen_arg v vlen -> no_mode g ->
    lax max_map [txt "mop"; txt "update"; key; field; v; g] (MUpdate key field vlen Reply)
| l_mdelete key l lenf n numf g : num_u32 l lenf -> num_u32 n numf -> fields_ok max_map lenf numf ->
    no_mode g ->
    lax max_map [txt "mop"; txt "delete"; key; l; n; txt "drop"; g] (MDelete key lenf numf true Reply)
| l_barith w inc key b bk d delta i n e ef g :
    (w = txt "incr" /\ inc = true) \/ (w = txt "decr" /\ inc = false) ->
    range_arg b (Single bk) -> num_u64 d delta -> (1 <= delta)%N -> num_u64 i n -> hex_arg e ef ->
    no_mode g ->
    lax max_map [txt "bop"; w; key; b; d; i; e; g] (BArith inc key bk delta (Some (n, Some ef)) Reply)
(* the sum of offset and count is compared after it went over 2^32 *)
| l_smget l lenk n numk b r ft f o off c count st s :
    num_u32 l lenk -> num_u32 n numk -> keys_ok 10000 lenk numk -> range_arg b r -> filter_opt ft f ->
    num_u32 o off -> num_u32 c count -> (1 <= count)%N ->
    (4294967296 <= off + count <= 4294967296 + 2000)%N -> smode_opt st s ->
    lax max_map (txt "bop" :: txt "smget" :: l :: n :: b :: ft ++ o :: c :: st)
                (BSmget lenk numk r f off count s).

(* the third token is the key (or the length of the key list); it has 16000 bytes at most *)
Definition key_ok (toks : list bytes) : Prop :=
  forall k, nth_error toks 2 = Some k -> (N.of_nat (List.length k) <= 16000)%N.
(* no list of more than a hundred values whose first one has 31 bytes (64 characters) *)
Definition narrow (toks : list bytes) : Prop :=
  forall t p ps, In t toks -> commas t (p :: ps) -> 100 <= List.length ps -> List.length p <> 64.
