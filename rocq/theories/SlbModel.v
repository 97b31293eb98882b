(* Model of the slab allocator and of the small memory allocator, /repo/engines/default/slabs.c.
   Addresses, sizes and counters are integers; 0 is NULL.  The counters of the code are int,
   unsigned or uint64_t; the proofs show that they stay non-negative and exact.
   Every public function runs under slabs.lock (slabs.c 1540-1594), so one operation of the
   model is one call. *)
From Verif Require Import Base.
Open Scope Z_scope.

(* ------------------------------------------------------------------ constants *)
Definition BLK : Z := 262144.       (* slabs.c 132 SM_BLOCK_SIZE *)
Definition BHEAD : Z := 32.         (* slabs.c 184 sizeof(sm_blck_t), lines 72-83 *)
Definition BBODY : Z := 262112.     (* slabs.c 185 *)
Definition MINS : Z := 32.          (* slabs.c 135 SM_MIN_SLOT_SIZE *)
Definition MAXS : Z := 49152.       (* slabs.c 137 SM_MAX_SLOT_SIZE *)
Definition MAX_SM_VALUE_LEN : Z := MAXS - 4.   (* slabs.c 195 *)

(* slabs.c 99-104 sm_class_t *)
Record sinfo : Type := mkSI { si_sulen : Z; si_sucnt : Z; si_tolen : Z; si_tocnt : Z }.

(* slabs.c 270-326 do_smmgr_build_class_info with SM_SLOT_UNIT_LEN 8 and SM_SLOT_UNIT_CNT 128:
   the entries and the total number of classes (the assertions are checked by the lemma
   class_info_value of SlbCls.v) *)
Fixpoint build_info (fuel : nat) (ulen tlen tcnt : Z) : list sinfo * Z :=
  match fuel with
  | O => ([], 0)
  | S f =>
      if tlen + ulen * 128 <? MAXS
      then let '(l, n) := build_info f (ulen * 2) (tlen + ulen * 128) (tcnt + 128) in
           (mkSI ulen 128 tlen tcnt :: l, n)
      else let c := (MAXS - tlen) / ulen in
           ([mkSI ulen c tlen tcnt; mkSI 0 0 (tlen + ulen * c) (tcnt + c)], tcnt + c)
  end.
Definition class_info : list sinfo := fst (build_info 10 8 0 0).
(* slabs.c 336-337 *)
Definition NCLS : Z := snd (build_info 10 8 0 0) + 1.

(* slabs.c 371-378 do_smmgr_slen *)
Definition slen_of (size : Z) : Z :=
  let s := (((size + 4 - 1) / 8) + 1) * 8 in
  if s <? MINS then MINS else s.

(* slabs.c 380-402 do_smmgr_memid; the walk over class_info, with the last entry as sentinel *)
Fixpoint memid_walk (l : list sinfo) (slen : Z) (above : bool) : Z :=
  match l with
  | c :: ((c2 :: _) as r) =>
      if slen >=? si_tolen c2 then memid_walk r slen above
      else let smid := si_tocnt c + (slen - si_tolen c) / si_sulen c in
           if above && negb ((slen - si_tolen c) mod si_sulen c =? 0) then smid + 1 else smid
  | _ => 0
  end.
Definition memid (slen : Z) (above : bool) : Z :=
  if slen >=? MAXS then NCLS - 1 else memid_walk class_info slen above.

(* ------------------------------------------------------------------ state *)

(* A 4-byte word of memory: its two 16-bit halves (the first one at the lower address).
   slot head: status is the word at +0; offset and length are the word at +4 (slabs.c 59-65);
   slot tail: offset and length are the last word of the slot (68-71). *)
Definition cell : Type := (Z * Z)%type.

Definition upd {A} (f : Z -> A) (k : Z) (v : A) : Z -> A :=
  fun x => if x =? k then v else f x.

(* slabs.c 86-91 sm_slist_t of free slots *)
Record flist : Type := mkFL { fl_head : Z; fl_tail : Z; fl_space : Z; fl_count : Z }.

(* memory: words, and the fields prev and next of the slot heads, keyed by slot address *)
Record memo : Type := mkM { m_w : Z -> cell; m_prev : Z -> Z; m_next : Z -> Z }.

(* the used side of sm_anchor_t, slabs.c 106-126 *)
Record uinfo : Type := mkU
  { u_num : Z; u_min : Z; u_max : Z; u_sl : Z -> (Z * Z) (* space, count *); u_tot : Z }.
(* the free side *)
Record finfo : Type := mkF { f_num : Z; f_min : Z; f_max : Z; f_sl : Z -> flist }.
(* used_01pct_clsid, used_01pct_space, free_small_space, free_avail_space *)
Record pinfo : Type := mkP { p_cls : Z; p_space : Z; p_small : Z; p_avail : Z }.

(* slabclass_t of slabs.h 26-46; slots is the stack of free chunks (top first), endp and endn
   are end_page_ptr and end_page_free.  The arrays slots and slab_list grow by realloc, which
   is taken to succeed (do_slabs_free leaks the chunk when it fails). *)
Record scls : Type := mkC
  { c_size : Z; c_per : Z; c_slots : list Z; c_endp : Z; c_endn : Z;
    c_slabs : Z; c_rsvd : Z; c_req : Z }.

Record st : Type := mkS
  { s_mem : memo; s_u : uinfo; s_f : finfo; s_p : pinfo;
    s_blks : list Z;                   (* used_blist *)
    s_ssl : Z; s_chunk : Z; s_lim : Z; (* space_shortage_level, free_chunk_space, free_limit_space *)
    s_cls : Z -> scls; s_largest : Z;  (* slabclass, power_largest *)
    s_memlimit : Z; s_resv : Z; s_malloced : Z; s_imax : Z;  (* ..., config->item_size_max *)
    s_arena : option (Z * Z);          (* mem_base <> NULL: mem_current, mem_avail *)
    s_pages : list (Z * Z) }.          (* ghost: address and length of each slab *)

Definition set_mem s m := mkS m (s_u s) (s_f s) (s_p s) (s_blks s) (s_ssl s) (s_chunk s)
  (s_lim s) (s_cls s) (s_largest s) (s_memlimit s) (s_resv s) (s_malloced s) (s_imax s)
  (s_arena s) (s_pages s).
Definition set_sm s m u f p := mkS m u f p (s_blks s) (s_ssl s) (s_chunk s) (s_lim s) (s_cls s)
  (s_largest s) (s_memlimit s) (s_resv s) (s_malloced s) (s_imax s) (s_arena s) (s_pages s).
Definition set_blks s b c := mkS (s_mem s) (s_u s) (s_f s) (s_p s) b (s_ssl s) c
  (s_lim s) (s_cls s) (s_largest s) (s_memlimit s) (s_resv s) (s_malloced s) (s_imax s)
  (s_arena s) (s_pages s).
Definition set_cls s i c := mkS (s_mem s) (s_u s) (s_f s) (s_p s) (s_blks s) (s_ssl s)
  (s_chunk s) (s_lim s) (upd (s_cls s) i c) (s_largest s) (s_memlimit s) (s_resv s)
  (s_malloced s) (s_imax s) (s_arena s) (s_pages s).
Definition set_ssl s x := mkS (s_mem s) (s_u s) (s_f s) (s_p s) (s_blks s) x (s_chunk s)
  (s_lim s) (s_cls s) (s_largest s) (s_memlimit s) (s_resv s) (s_malloced s) (s_imax s)
  (s_arena s) (s_pages s).
Definition set_limits s ch lim := mkS (s_mem s) (s_u s) (s_f s) (s_p s) (s_blks s) (s_ssl s)
  ch lim (s_cls s) (s_largest s) (s_memlimit s) (s_resv s) (s_malloced s) (s_imax s)
  (s_arena s) (s_pages s).

(* ------------------------------------------------------------------ slab chunks *)
Section Alloc.
(* malloc: the address of a new area of the given length (None is failure), depending on
   anything that happened before (the seed) and on the areas in use *)
Variable malloc : Z -> list (Z * Z) -> Z -> option Z.

(* slabs.c 1242-1268 memory_allocate *)
Definition memory_allocate (s : st) (seed len : Z) : option (st * Z) :=
  match s_arena s with
  | None =>
      match malloc seed (s_pages s) len with
      | Some a => Some (s, a)
      | None => None
      end
  | Some (cur, avail) =>
      if avail <? len then None
      else let len' := if len mod 8 =? 0 then len else len + (8 - len mod 8) in
           Some (mkS (s_mem s) (s_u s) (s_f s) (s_p s) (s_blks s) (s_ssl s) (s_chunk s) (s_lim s)
                     (s_cls s) (s_largest s) (s_memlimit s) (s_resv s) (s_malloced s) (s_imax s)
                     (Some (cur + len', if len' <? avail then avail - len' else 0))
                     (s_pages s), cur)
  end.

(* memset(ptr, 0, len) *)
Definition zero_mem (m : memo) (a len : Z) : memo :=
  mkM (fun x => if (a <=? x) && (x <? a + len) then (0, 0) else m_w m x)
      (m_prev m) (m_next m).

(* slabs.c 1298-1313: define the reserved slab count of slab class 0 *)
Definition define_rsvd (s : st) : st :=
  if (s_memlimit s <=? s_malloced s) || (s_memlimit s - s_malloced s <? s_resv s) then
    let z := s_cls s 0 in
    if c_rsvd z =? 0 then
      let add := c_slabs z / 100 * 5 in
      let add := if add <? 4 then 4 else add in
      let lim := add * c_per z * BLK in
      set_limits
        (set_cls s 0 (mkC (c_size z) (c_per z) (c_slots z) (c_endp z) (c_endn z) (c_slabs z)
                          (c_slabs z + add) (c_req z)))
        (lim + (Z.of_nat (length (c_slots z)) + c_endn z) * BLK) lim
    else s
  else s.

(* slabs.c 1271-1316 do_slabs_newslab; None is the result 0 *)
Definition newslab (s : st) (id seed : Z) : option st :=
  let p := s_cls s id in
  let len := c_size p * c_per p in
  if negb (s_memlimit s =? 0) && (s_memlimit s <? s_malloced s + len) &&
     (c_rsvd p <=? c_slabs p) then None
  else
    match memory_allocate s seed len with
    | None => None
    | Some (s1, ptr) =>
        let p1 := mkC (c_size p) (c_per p) (c_slots p) ptr (c_per p) (c_slabs p + 1) (c_rsvd p)
                      (c_req p) in
        let s2 := mkS (zero_mem (s_mem s1) ptr len) (s_u s1) (s_f s1) (s_p s1) (s_blks s1)
                      (s_ssl s1) (s_chunk s1) (s_lim s1) (upd (s_cls s1) id p1) (s_largest s1)
                      (s_memlimit s1) (s_resv s1) (s_malloced s1 + len) (s_imax s1)
                      (s_arena s1) ((ptr, len) :: s_pages s1) in
        let s3 := if (id =? 0) && (0 <? c_rsvd p1) && (c_rsvd p1 <? c_slabs p1)
                  then set_limits s2 (s_chunk s2 + c_per p1 * c_size p1)
                                  (s_lim s2 + c_per p1 * c_size p1)
                  else s2 in
        Some (define_rsvd s3)
    end.

(* slabs.c 1352-1388 do_slabs_alloc, sizes above MAX_SM_VALUE_LEN; the address is 0 when there
   is no memory.  None when the assertion of line 1371 fails. *)
Definition chunk_alloc (s : st) (size id seed : Z) : option (st * Z) :=
  let p := s_cls s id in
  let os := if negb (c_endp p =? 0) || negb (match c_slots p with [] => true | _ => false end)
            then Some s else newslab s id seed in
  match os with
  | None => Some (s, 0)
  | Some s1 =>
      let p1 := s_cls s1 id in
      match c_slots p1 with
      | a :: r =>
          Some (set_cls s1 id (mkC (c_size p1) (c_per p1) r (c_endp p1) (c_endn p1) (c_slabs p1)
                                   (c_rsvd p1) (c_req p1 + size)), a)
      | [] =>
          if c_endp p1 =? 0 then None
          else
            let n := (c_endn p1 - 1) mod 4294967296 in
            let e := if n =? 0 then 0 else c_endp p1 + c_size p1 in
            Some (set_cls s1 id (mkC (c_size p1) (c_per p1) [] e n (c_slabs p1)
                                     (c_rsvd p1) (c_req p1 + size)), c_endp p1)
      end
  end.

(* slabs.c 1402-1424 do_slabs_free, sizes above MAX_SM_VALUE_LEN *)
Definition chunk_free (s : st) (a size id : Z) : st :=
  let p := s_cls s id in
  set_cls s id (mkC (c_size p) (c_per p) (a :: c_slots p) (c_endp p) (c_endn p) (c_slabs p)
                    (c_rsvd p) (c_req p - size)).

(* ------------------------------------------------------------------ small memory *)

(* for (i = from; n times; i++) if (test i) break;  the value of i at the end *)
Fixpoint scan_up (n : nat) (i : Z) (test : Z -> bool) : Z :=
  match n with
  | O => i
  | S k => if test i then i else scan_up k (i + 1) test
  end.
Fixpoint scan_down (n : nat) (i : Z) (test : Z -> bool) : Z :=
  match n with
  | O => i
  | S k => if test i then i else scan_down k (i - 1) test
  end.

(* the common text of slabs.c 418-442 and 460-489: minimum and maximum class after class targ
   became empty; None when an assertion fails *)
Definition bounds_del (lo hi targ : Z) (used : Z -> bool) : option (Z * Z) :=
  if targ =? lo then
    if targ =? hi then Some (NCLS, -1)
    else let smid := scan_up (Z.to_nat (hi - targ)) (targ + 1) used in
         if smid <=? hi then Some (smid, hi) else None
  else
    if targ =? hi then
      let smid := scan_down (Z.to_nat (targ - lo)) (targ - 1) used in
      if smid >=? lo then Some (lo, smid) else None
    else Some (lo, hi).

(* slabs.c 407-416 do_smmgr_used_slot_list_add *)
Definition used_list_add (u : uinfo) (targ : Z) : uinfo :=
  mkU (u_num u + 1) (if targ <? u_min u then targ else u_min u)
      (if targ >? u_max u then targ else u_max u) (u_sl u) (u_tot u).

(* slabs.c 418-442 do_smmgr_used_slot_list_del *)
Definition used_list_del (u : uinfo) (targ : Z) : option uinfo :=
  match bounds_del (u_min u) (u_max u) targ (fun i => snd (u_sl u i) >? 0) with
  | Some (lo, hi) => Some (mkU (u_num u - 1) lo hi (u_sl u) (u_tot u))
  | None => None
  end.

(* slabs.c 444-458 do_smmgr_free_slot_list_add *)
Definition free_list_add (f : finfo) (targ : Z) : finfo :=
  if targ >=? NCLS - 1 then f
  else mkF (f_num f + 1) (if targ <? f_min f then targ else f_min f)
           (if targ >? f_max f then targ else f_max f) (f_sl f).

(* slabs.c 460-489 do_smmgr_free_slot_list_del *)
Definition free_list_del (f : finfo) (targ : Z) : option finfo :=
  if targ >=? NCLS - 1 then Some f
  else match bounds_del (f_min f) (f_max f) targ (fun i => negb (fl_head (f_sl f i) =? 0)) with
       | Some (lo, hi) => Some (mkF (f_num f - 1) lo hi (f_sl f))
       | None => None
       end.

Definition u16 (x : Z) : Z := x mod 65536.
Definition set_lo (w : Z -> cell) (a v : Z) : Z -> cell := upd w a (v, snd (w a)).
Definition set_hi (w : Z -> cell) (a v : Z) : Z -> cell := upd w a (fst (w a), v).

(* slabs.c 491-502 do_smmgr_used_slot_init *)
Definition used_slot_init (m : memo) (a off len : Z) : memo :=
  let t := a + len - 4 in
  let w := set_lo (m_w m) t (u16 (off / 8)) in
  let w := set_hi w t (u16 (len / 8)) in
  mkM (upd w a (65535, 65535)) (m_prev m) (m_next m).

(* slabs.c 504-513 do_smmgr_free_slot_init *)
Definition free_slot_init (m : memo) (a off len : Z) : memo :=
  let t := a + len - 4 in
  let w := set_lo (m_w m) t (u16 (off / 8)) in
  let w := set_hi w t 0 in
  let w := upd w a (0, 0) in
  let w := set_lo w (a + 4) (fst (w t)) in
  let w := set_hi w (a + 4) (u16 (len / 8)) in
  mkM w (m_prev m) (m_next m).

(* slabs.c 515-565 do_smmgr_free_slot_link; None when an assertion fails *)
Definition free_slot_link (m : memo) (f : finfo) (p : pinfo) (a off len : Z)
  : option (memo * finfo * pinfo) :=
  let m := free_slot_init m a off len in
  if len <? MINS then Some (m, f, mkP (p_cls p) (p_space p) (p_small p + len) (p_avail p))
  else
    let smid := memid len false in
    let l := f_sl f smid in
    let empty := fl_tail l =? 0 in
    let ok := if empty then (fl_head l =? 0) && (fl_count l =? 0) && (fl_space l =? 0)
              else negb (fl_head l =? 0) && (fl_count l >? 0) && (fl_space l >? 0) in
    if negb ok then None
    else
      let m := if empty then mkM (m_w m) (upd (m_prev m) a 0) (upd (m_next m) a 0)
               else mkM (m_w m) (upd (m_prev m) a (fl_tail l))
                        (upd (upd (m_next m) a 0) (fl_tail l) a) in
      let l' := mkFL (if empty then a else fl_head l) a (fl_space l + len) (fl_count l + 1) in
      let f := mkF (f_num f) (f_min f) (f_max f) (upd (f_sl f) smid l') in
      let f := if fl_count l' =? 1 then free_list_add f smid else f in
      let p := if negb (p_cls p =? -1) then
                 if smid <? p_cls p
                 then mkP (p_cls p) (p_space p) (p_small p + len) (p_avail p)
                 else mkP (p_cls p) (p_space p) (p_small p) (p_avail p + len)
               else if smid =? NCLS - 1
                    then mkP (p_cls p) (p_space p) (p_small p) (p_avail p + len)
                    else p in
      Some (m, f, p).

(* slabs.c 567-605 do_smmgr_free_slot_unlink; None when an assertion fails *)
Definition free_slot_unlink (m : memo) (f : finfo) (p : pinfo) (a : Z)
  : option (memo * finfo * pinfo) :=
  let len := snd (m_w m (a + 4)) * 8 in
  if len <? MINS then Some (m, f, mkP (p_cls p) (p_space p) (p_small p - len) (p_avail p))
  else
    let smid := memid len false in
    if p_cls p =? -1 then None
    else
      let p := if smid <? p_cls p
               then mkP (p_cls p) (p_space p) (p_small p - len) (p_avail p)
               else mkP (p_cls p) (p_space p) (p_small p) (p_avail p - len) in
      let l := f_sl f smid in
      if fl_count l =? 1 then
        if (fl_space l =? len) && (fl_head l =? a) && (fl_tail l =? a)
        then match free_list_del (mkF (f_num f) (f_min f) (f_max f)
                                      (upd (f_sl f) smid (mkFL 0 0 0 0))) smid with
             | Some f => Some (m, f, p)
             | None => None
             end
        else None
      else if (fl_count l >? 1) && (fl_space l >? len) && negb (fl_head l =? 0) &&
              negb (fl_tail l =? 0)
           then
             let pv := m_prev m a in
             let nx := m_next m a in
             let nxt := if pv =? 0 then m_next m else upd (m_next m) pv nx in
             let prv := if nx =? 0 then m_prev m else upd (m_prev m) nx pv in
             let l' := mkFL (if fl_head l =? a then nx else fl_head l)
                            (if fl_tail l =? a then pv else fl_tail l)
                            (fl_space l - len) (fl_count l - 1) in
             Some (mkM (m_w m) prv nxt,
                   mkF (f_num f) (f_min f) (f_max f) (upd (f_sl f) smid l'), p)
           else None.

(* slabs.c 668-679 do_smmgr_blck_alloc *)
Definition blck_alloc (s : st) (seed : Z) : option (st * Z) :=
  match chunk_alloc s BLK 0 seed with
  | None => None
  | Some (s1, b) =>
      if b =? 0 then Some (s1, 0)
      else Some (set_blks s1 (s_blks s1 ++ [b])
                          (if s_lim s1 >? 0 then s_chunk s1 - BLK else s_chunk s1), b)
  end.

Fixpoint remove_z (a : Z) (l : list Z) : list Z :=
  match l with
  | [] => []
  | x :: r => if x =? a then r else x :: remove_z a r
  end.

(* slabs.c 681-689 do_smmgr_blck_free *)
Definition blck_free (s : st) (b : Z) : st :=
  let s1 := chunk_free s b BLK 0 in
  set_blks s1 (remove_z b (s_blks s1)) (if s_lim s1 >? 0 then s_chunk s1 + BLK else s_chunk s1).

(* slabs.c 691-710 do_smmgr_01pct_first_set *)
Definition p_first_set (f : finfo) (p : pinfo) (slen targ : Z) : option pinfo :=
  if negb (p_cls p =? -1) then None
  else if negb (f_max f =? -1) then
    if (f_max f =? f_min f) && (p_small p =? 0) && (p_avail p =? 0) then
      let sp := fl_space (f_sl f (f_max f)) in
      if f_max f <? targ then Some (mkP targ slen sp (p_avail p))
      else Some (mkP targ slen (p_small p) sp)
    else None
  else Some (mkP targ slen (p_small p) (p_avail p)).

(* slabs.c 712-720 do_smmgr_01pct_last_clear *)
Definition p_last_clear (p : pinfo) : option pinfo :=
  if (p_small p =? 0) && (p_avail p =? 0) then Some (mkP (-1) 0 0 0) else None.

(* for (i = from; n times; i++) space_adjusted += free_slist[i].space *)
Fixpoint adj_sum (n : nat) (i : Z) (f : finfo) : Z :=
  match n with
  | O => 0
  | S k => (if fl_space (f_sl f i) >? 0 then fl_space (f_sl f i) else 0) + adj_sum k (i + 1) f
  end.

(* slabs.c 731-739 *)
Fixpoint right_loop (n : nat) (smid sp std : Z) (u : uinfo) : Z * Z :=
  match n with
  | O => (smid, sp)
  | S k =>
      let x := fst (u_sl u smid) in
      if x >? 0 then
        if sp - x <? std then (smid, sp) else right_loop k (smid + 1) (sp - x) std u
      else right_loop k (smid + 1) sp std u
  end.

(* slabs.c 722-766 do_smmgr_01pct_check_and_move_right *)
Definition move_right (u : uinfo) (f : finfo) (p : pinfo) : pinfo :=
  let std := u_tot u / 100 + 1 in
  let '(smid, sp) := right_loop (Z.to_nat (u_max u - p_cls p)) (p_cls p) (p_space p) std u in
  if smid =? p_cls p then mkP (p_cls p) sp (p_small p) (p_avail p)
  else let adj := adj_sum (Z.to_nat (smid - p_cls p)) (p_cls p) f in
       mkP smid sp (p_small p + adj) (p_avail p - adj).

(* slabs.c 783-790 *)
Fixpoint left_loop (n : nat) (smid sp std : Z) (u : uinfo) : Z * Z :=
  match n with
  | O => (smid, sp)
  | S k =>
      let x := fst (u_sl u smid) in
      if x >? 0 then
        if sp + x >=? std then (smid, sp + x) else left_loop k (smid - 1) (sp + x) std u
      else left_loop k (smid - 1) sp std u
  end.

(* slabs.c 768-838 do_smmgr_01pct_check_and_move_left; None when an assertion fails *)
Definition move_left (u : uinfo) (f : finfo) (p : pinfo) : option pinfo :=
  let std := u_tot u / 100 + 1 in
  if p_space p <? std then
    let from := if p_cls p - 1 >? u_max u then u_max u else p_cls p - 1 in
    let '(smid, sp) := left_loop (Z.to_nat (from - u_min u + 1)) from (p_space p) std u in
    if smid <? u_min u then None
    else let adj := adj_sum (Z.to_nat (p_cls p - smid)) smid f in
         Some (mkP smid sp (p_small p - adj) (p_avail p + adj))
  else if fst (u_sl u (p_cls p)) =? 0 then
    let smid := scan_up (Z.to_nat (u_max u - p_cls p)) (p_cls p + 1)
                        (fun i => fst (u_sl u i) >? 0) in
    if smid >? u_max u then None
    else let adj := adj_sum (Z.to_nat (smid - p_cls p)) (p_cls p) f in
         Some (mkP smid (p_space p) (p_small p + adj) (p_avail p - adj))
  else Some p.

(* slabs.c 213-260 do_slabs_check_space_shortage_level (called when free_limit_space > 0) *)
Definition check_ssl (s : st) : Z :=
  let large := fl_space (f_sl (s_f s) (NCLS - 1)) + s_chunk s in
  if large >=? s_lim s then 0
  else
    let avail := s_chunk s + p_avail (s_p s) in
    let lim := s_lim s + (s_lim s - large) in
    if avail <? lim then
      if avail / 10 >? 0
      then let x := lim / (avail / 10) - 9 in if x >? 100 then 100 else x
      else 100
    else 0.
Definition upd_ssl (s : st) : st := if s_lim s >? 0 then set_ssl s (check_ssl s) else s.

(* slabs.c 858-905: the class of free slots to take; None when the assertion fails *)
Definition find_class (f : finfo) (pc ssl slen targ : Z) : option Z :=
  let full i := negb (fl_head (f_sl f i) =? 0) in
  let up smid :=
      if smid >? f_max f then Some (f_max f)
      else let r := scan_up (Z.to_nat (f_max f - smid + 1)) smid full in
           if r <=? f_max f then Some r else None in
  if targ >? f_max f then Some (NCLS - 1)
  else if full targ then Some targ
  else if targ >=? pc then up (targ + 1)
  else
    let twice := memid (slen * 2) false in
    let next := if twice <? pc then twice else pc in
    if ssl >? 0 then
      let from := if twice <? pc then twice - 1 else pc - 1 in
      let r := scan_down (Z.to_nat (from - targ)) from full in
      if r >? targ then Some r else up next
    else up next.

(* slabs.c 931-938: used slot stats of an allocation *)
Definition used_add (u : uinfo) (slen targ : Z) : uinfo :=
  let x := u_sl u targ in
  let u1 := mkU (u_num u) (u_min u) (u_max u)
                (upd (u_sl u) targ (fst x + slen, snd x + 1)) (u_tot u + slen) in
  if snd x + 1 =? 1 then used_list_add u1 targ else u1.

(* slabs.c 941-952: adjust the class of the last 1% after an allocation *)
Definition p_after_alloc (u : uinfo) (f : finfo) (p : pinfo) (slen targ : Z) : option pinfo :=
  if u_tot u =? slen then
    if p_space p =? 0 then p_first_set f p slen targ else None
  else if targ >=? p_cls p
       then Some (move_right u f (mkP (p_cls p) (p_space p + slen) (p_small p) (p_avail p)))
       else move_left u f p.

(* slabs.c 840-953 do_smmgr_alloc; address 0 when there is no memory, None when an assertion
   fails *)
Definition sm_alloc (s : st) (size seed : Z) : option (st * Z) :=
  let s := upd_ssl s in
  let slen := slen_of size in
  let targ := memid slen true in
  match find_class (s_f s) (p_cls (s_p s)) (s_ssl s) slen targ with
  | None => None
  | Some smid =>
      let cur := fl_head (f_sl (s_f s) smid) in
      let got :=
        if cur =? 0 then
          match blck_alloc s seed with
          | None => None
          | Some (s1, b) =>
              if b =? 0 then Some (s1, 0)
              else
                let m := used_slot_init (s_mem s1) (b + BHEAD) BHEAD slen in
                match free_slot_link m (s_f s1) (s_p s1) (b + BHEAD + slen) (BHEAD + slen)
                                     (BBODY - slen) with
                | None => None
                | Some (m, f, p) => Some (set_sm s1 m (s_u s1) f p, b + BHEAD)
                end
          end
        else
          let off := fst (m_w (s_mem s) (cur + 4)) * 8 in
          let len := snd (m_w (s_mem s) (cur + 4)) * 8 in
          if len <? slen then None
          else
            match free_slot_unlink (s_mem s) (s_f s) (s_p s) cur with
            | None => None
            | Some (m, f, p) =>
                let m := used_slot_init m cur off slen in
                if len >? slen then
                  match free_slot_link m f p (cur + slen) (off + slen) (len - slen) with
                  | None => None
                  | Some (m, f, p) => Some (set_sm s m (s_u s) f p, cur)
                  end
                else Some (set_sm s m (s_u s) f p, cur)
            end in
      match got with
      | None => None
      | Some (s1, a) =>
          if a =? 0 then Some (s1, 0)
          else
            let u := used_add (s_u s1) slen targ in
            match p_after_alloc u (s_f s1) (s_p s1) slen targ with
            | None => None
            | Some p => Some (set_sm s1 (s_mem s1) u (s_f s1) p, a)
            end
      end
  end.

(* slabs.c 161-180: SM_FREE_SLOT, SM_FREE_TAIL *)
Definition free_slot (c : cell) : bool := (fst c =? 0) && (snd c =? 0).
Definition free_tail (c : cell) : bool := snd c <=? 1.

(* slabs.c 955-967 sm_get_prev_free_slot: Some 0 is NULL, None a failed assertion *)
Definition prev_free (m : memo) (a b : Z) : option Z :=
  let t := m_w m (a - 4) in
  if free_tail t then
    let x := b + fst t * 8 in
    if (fst (m_w m (x + 4)) =? fst t) && free_slot (m_w m x) then Some x else None
  else Some 0.

(* slabs.c 969-982 sm_get_next_free_slot; tl is the address of the tail of the slot *)
Definition next_free (m : memo) (tl : Z) : option Z :=
  let x := tl + 4 in
  if free_slot (m_w m x) then
    let t := m_w m (x + snd (m_w m (x + 4)) * 8 - 4) in
    if (fst t =? fst (m_w m (x + 4))) && free_tail t then Some x else None
  else Some 0.

(* slabs.c 1007-1028: merge the free neighbours; address, offset and length of the result *)
Definition merge (m : memo) (f : finfo) (p : pinfo) (a off slen : Z)
  : option (memo * finfo * pinfo * (Z * Z * Z)) :=
  let b := a - off in
  let tl := a + slen - 4 in
  let left :=
    if off >? BHEAD then
      match prev_free m a b with
      | None => None
      | Some x =>
          if x =? 0 then Some (m, f, p, (a, off, slen))
          else match free_slot_unlink m f p x with
               | None => None
               | Some (m, f, p) =>
                   Some (m, f, p, (x, fst (m_w m (x + 4)) * 8, slen + snd (m_w m (x + 4)) * 8))
               end
      end
    else Some (m, f, p, (a, off, slen)) in
  match left with
  | None => None
  | Some (m, f, p, (a1, off1, len1)) =>
      if off1 + len1 <? BLK then
        match next_free m tl with
        | None => None
        | Some x =>
            if x =? 0 then Some (m, f, p, (a1, off1, len1))
            else match free_slot_unlink m f p x with
                 | None => None
                 | Some (m, f, p) =>
                     Some (m, f, p, (a1, off1, len1 + snd (m_w m (x + 4)) * 8))
                 end
        end
      else Some (m, f, p, (a1, off1, len1))
  end.

(* slabs.c 1037-1044: used slot stats of a release; None when an assertion fails *)
Definition used_sub (u : uinfo) (slen targ : Z) : option uinfo :=
  let x := u_sl u targ in
  if snd x <? 1 then None
  else
    let u1 := mkU (u_num u) (u_min u) (u_max u)
                  (upd (u_sl u) targ (fst x - slen, snd x - 1)) (u_tot u - slen) in
    if snd x - 1 =? 0 then used_list_del u1 targ else Some u1.

(* slabs.c 1046-1057 *)
Definition p_after_free (u : uinfo) (f : finfo) (p : pinfo) (slen targ : Z) : option pinfo :=
  if u_tot u =? 0 then
    if p_space p =? slen then p_last_clear p else None
  else if targ >=? p_cls p
       then move_left u f (mkP (p_cls p) (p_space p - slen) (p_small p) (p_avail p))
       else Some (move_right u f p).

(* slabs.c 984-1059 do_smmgr_free; None when an assertion fails *)
Definition sm_free (s : st) (a size : Z) : option st :=
  let s := upd_ssl s in
  let slen := slen_of size in
  let targ := memid slen true in
  let tl := m_w (s_mem s) (a + slen - 4) in
  let off := fst tl * 8 in
  if negb (snd tl * 8 =? slen) then None
  else
    match merge (s_mem s) (s_f s) (s_p s) a off slen with
    | None => None
    | Some (m, f, p, (a1, off1, len1)) =>
        let got :=
          if (off1 >? BHEAD) || (len1 <? BBODY) then
            match free_slot_link m f p a1 off1 len1 with
            | None => None
            | Some (m, f, p) => Some (set_sm s m (s_u s) f p)
            end
          else Some (blck_free (set_sm s m (s_u s) f p) (a - off)) in
        match got with
        | None => None
        | Some s1 =>
            match used_sub (s_u s1) slen targ with
            | None => None
            | Some u =>
                match p_after_free u (s_f s1) (s_p s1) slen targ with
                | None => None
                | Some p => Some (set_sm s1 (s_mem s1) u (s_f s1) p)
                end
            end
        end
    end.

(* ------------------------------------------------------------------ interface *)

(* slabs.c 1183-1193 slabs_clsid; the loop over the classes *)
Fixpoint clsid_loop (fuel : nat) (s : st) (size res : Z) : Z :=
  match fuel with
  | O => 0
  | S k => if size >? c_size (s_cls s res)
           then if res =? s_largest s then 0 else clsid_loop k s size (res + 1)
           else res
  end.
Definition slabs_clsid (s : st) (size : Z) : Z :=
  if size =? 0 then 0 else clsid_loop (Z.to_nat (s_largest s)) s size 1.

(* slabs.c 1341-1351, 1540-1550 slabs_alloc.  The callers (item_base.c 933, 607, 706, 815,
   843, 894) pass the class of the size. *)
Definition slabs_alloc (s : st) (size seed : Z) : option (st * Z) :=
  let id := slabs_clsid s size in
  if (id <? 1) || (s_largest s <? id) then Some (s, 0)
  else if size <=? MAX_SM_VALUE_LEN then sm_alloc s size seed
       else chunk_alloc s size id seed.

(* slabs.c 1392-1400, 1552-1559 slabs_free; the class is the one given at the allocation *)
Definition slabs_free (s : st) (a size : Z) : option st :=
  let id := slabs_clsid s size in
  if (id <? 1) || (s_largest s <? id) then Some s
  else if size <=? MAX_SM_VALUE_LEN then sm_free s a size
       else Some (chunk_free s a size id).

(* slabs.c 1510-1538 do_slabs_set_memlimit *)
Definition set_memlimit (s : st) (n : Z) : st :=
  match s_arena s with
  | Some _ => s
  | None =>
      if n <? s_malloced s + s_malloced s / 10 then s
      else
        let r := n / 100 * 5 in
        let r := if r <? 4 * s_imax s then 4 * s_imax s else r in
        let z := s_cls s 0 in
        if negb (c_rsvd z =? 0) && (n - s_malloced s <? r) then s
        else mkS (s_mem s) (s_u s) (s_f s) (s_p s) (s_blks s) 0 0 0
                 (upd (s_cls s) 0 (mkC (c_size z) (c_per z) (c_slots z) (c_endp z) (c_endn z)
                                       (c_slabs z) 0 (c_req z)))
                 (s_largest s) n r (s_malloced s) (s_imax s) (s_arena s) (s_pages s)
  end.

(* slabs.c 1065-1159 slabs_init, 330-360 do_smmgr_init.  sizes are the chunk sizes of the
   classes 1, 2, ... below the last one; they are computed by repeated multiplication with a
   floating point factor (1099-1119), which is not modelled.  w0 is the memory before.  base is
   the address of the memory that is allocated at once (prealloc), None without it. *)
Definition rsvd_of (per : Z) : Z := if per * 4 <? 6 then (6 - 1) / per + 1 else 4.
Definition init_cls (imax : Z) (sizes : list Z) (i : Z) : scls :=
  if i =? 0 then mkC BLK (imax / BLK) [] 0 0 0 0 0
  else match nth_error sizes (Z.to_nat (i - 1)) with
       | Some z => if i <=? Z.of_nat (length sizes)
                   then mkC z (imax / z) [] 0 0 0 (rsvd_of (imax / z)) 0
                   else mkC imax 1 [] 0 0 0 6 0
       | None => mkC imax 1 [] 0 0 0 6 0
       end.
Definition init (w0 : memo) (limit imax : Z) (sizes : list Z) (base : option Z) : st :=
  mkS w0 (mkU 0 NCLS (-1) (fun _ => (0, 0)) 0) (mkF 0 NCLS (-1) (fun _ => mkFL 0 0 0 0))
      (mkP (-1) 0 0 0) [] 0 0 0 (init_cls imax sizes) (Z.of_nat (length sizes) + 1)
      limit (let r := limit / 100 * 5 in if r <? 4 * imax then 4 * imax else r) 0 imax
      (match base with Some b => Some (b, limit) | None => None end) [].

(* ------------------------------------------------------------------ executions *)

(* What the engine does with the memory: areas are allocated and released, and words inside of
   an area in use are written.  The first word of an area holds refcount and slabs_clsid of an
   item, element or node (item_base.h 148-300); it is not zero as long as the area is in use
   (slabs_clsid > 0) and may be zero when the area is given back (item_base.c 913-918).
   A write also destroys prev and next fields that would be at that place. *)
Inductive op : Type :=
| OAlloc (size seed : Z)
| OFree (a size : Z) (w : cell)
| OWrite (a size off : Z) (w : cell) (junk : Z)
| OLimit (n : Z).

Definition write_mem (m : memo) (x : Z) (w : cell) (junk : Z) : memo :=
  mkM (upd (m_w m) x w)
      (upd (upd (m_prev m) (x - 8) junk) (x - 12) junk)
      (upd (upd (m_next m) (x - 16) junk) (x - 20) junk).

Definition eq_area (x y : Z * Z) : bool := (fst x =? fst y) && (snd x =? snd y).
Fixpoint remove_area (x : Z * Z) (l : list (Z * Z)) : list (Z * Z) :=
  match l with
  | [] => []
  | y :: r => if eq_area x y then r else y :: remove_area x r
  end.

(* live: the areas in use, address and requested size.  None is a failed assertion; operations
   that the engine does not issue leave everything as it is. *)
Definition step (s : st) (live : list (Z * Z)) (o : op) : option (st * list (Z * Z)) :=
  match o with
  | OAlloc size seed =>
      if size <=? 0 then Some (s, live)
      else match slabs_alloc s size seed with
           | None => None
           | Some (s', a) => if a =? 0 then Some (s', live) else Some (s', (a, size) :: live)
           end
  | OFree a size w =>
      if existsb (eq_area (a, size)) live then
        match slabs_free (set_mem s (write_mem (s_mem s) a w 0)) a size with
        | None => None
        | Some s' => Some (s', remove_area (a, size) live)
        end
      else Some (s, live)
  | OWrite a size off w junk =>
      if existsb (eq_area (a, size)) live && (0 <=? off) && (off <? size) && (off mod 4 =? 0) &&
         negb ((off =? 0) && free_slot w)
      then Some (set_mem s (write_mem (s_mem s) (a + off) w junk), live)
      else Some (s, live)
  | OLimit n => Some (set_memlimit s n, live)
  end.

Fixpoint run (s : st) (live : list (Z * Z)) (ops : list op) : option (st * list (Z * Z)) :=
  match ops with
  | [] => Some (s, live)
  | o :: r => match step s live o with
              | Some (s', live') => run s' live' r
              | None => None
              end
  end.

End Alloc.
