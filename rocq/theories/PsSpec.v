(* What the counts per prefix are: docs/ascii-protocol/ch12 "stats prefixes operation", "stats detail". *)
From Coq Require Import String Ascii.
From Verif Require Import Base UtilModel ArgTypes PsModel.
From Coq Require Import List ZArith NArith Lia Bool.
Local Open Scope nat_scope.
Local Open Scope list_scope.

(* the prefix of a key: what is in front of the first delimiter that is not its first byte *)
Definition prefix_of (delim : N) (key p : bytes) : Prop :=
  (exists x q rest, p = x :: q /\ key = p ++ delim :: rest /\ ~ In delim q) \/
  (p = [] /\ ~ In delim (tl key)).

(* letters of a line of the reply, ch12 (pgs, pgh: bop pwg and gps, gph: bop gbp, which the documents mix up) *)
Definition letters : list (bytes * ctr) :=
  [(txt "get", Ops OGet); (txt "hit", Hits OGet); (txt "set", Ops OSet); (txt "del", Ops ODelete);
   (txt "inc", Ops OIncr); (txt "dec", Ops ODecr);
   (txt "lcs", Ops LCreate); (txt "lis", Ops LInsert); (txt "lih", Hits LInsert); (txt "lds", Ops LDelete); (txt "ldh", Hits LDelete);
   (txt "lgs", Ops LGet); (txt "lgh", Hits LGet);
   (txt "scs", Ops SCreate); (txt "sis", Ops SInsert); (txt "sih", Hits SInsert); (txt "sds", Ops SDelete); (txt "sdh", Hits SDelete);
   (txt "sgs", Ops SGet); (txt "sgh", Hits SGet); (txt "ses", Ops SExist); (txt "seh", Hits SExist);
   (txt "mcs", Ops MCreate); (txt "mis", Ops MInsert); (txt "mih", Hits MInsert); (txt "mus", Ops MUpdate); (txt "muh", Hits MUpdate);
   (txt "mds", Ops MDelete); (txt "mdh", Hits MDelete); (txt "mgs", Ops MGet); (txt "mgh", Hits MGet);
   (txt "bcs", Ops BCreate); (txt "bis", Ops BInsert); (txt "bih", Hits BInsert); (txt "bus", Ops BUpdate); (txt "buh", Hits BUpdate);
   (txt "bds", Ops BDelete); (txt "bdh", Hits BDelete); (txt "bps", Ops BIncr); (txt "bph", Hits BIncr);
   (txt "bms", Ops BDecr); (txt "bmh", Hits BDecr); (txt "bgs", Ops BGet); (txt "bgh", Hits BGet); (txt "bns", Ops BCount); (txt "bnh", Hits BCount);
   (txt "pfs", Ops BPosition); (txt "pfh", Hits BPosition); (txt "pgs", Ops BPwg); (txt "pgh", Hits BPwg);
   (txt "gps", Ops BGbp); (txt "gph", Hits BGbp); (txt "gas", Ops GetAttr); (txt "sas", Ops SetAttr)].
(* a count of the prefix p over a history: (statistics on?, operated on since the last flush?, number) *)
Definition same (a b : bytes) : bool := if list_eq_dec N.eq_dec a b then true else false.
Definition counts (k : ctr) (o : op) (hit : bool) : bool :=
  match k with
  | Ops o' => op_beq o o'
  | Hits o' => op_beq o o' && hit && existsb (fun w => match snd w with Hits x => op_beq o x | Ops _ => false end) letters
  end.   (* hits are counted where the reply has letters for them *)
Section Tally.
Variable pre : bytes -> bytes.   (* the prefix of a key *)
Definition tally1 (p : bytes) (k : ctr) (t : bool * bool * N) (e : ev) : bool * bool * N :=
  let '(on, seen, n) := t in
  match e with
  | EOp o hit key => if (on && same (pre key) p)%bool then (on, true, if counts k o hit then (n + 1)%N else n) else t
  | EFlush tok => if (on && same (if same tok (txt "<null>") then [] else tok) p)%bool then (on, false, 0%N) else t
  | EDetail b => (b, seen, n)
  | EReset => (on, false, 0%N)
  end.
Definition tally (p : bytes) (k : ctr) (on : bool) (h : list ev) : bool * bool * N := fold_left (tally1 p k) h (on, false, 0%N).
Definition listed (p : bytes) (on : bool) (h : list ev) : Prop := snd (fst (tally p (Ops OGet) on h)) = true.
Definition number (p : bytes) (k : ctr) (on : bool) (h : list ev) : N := snd (tally p k on h).

Fixpoint pairs (v : ctr -> N) (l : list (bytes * ctr)) : bytes :=
  match l with
  | [] => [13%N; 10%N]
  | (w, k) :: r => 32%N :: w ++ 32%N :: dec_text (v k) ++ pairs v r
  end.
Definition stat_line (v : ctr -> N) (p : bytes) : bytes :=
  txt "PREFIX " ++ (match p with [] => txt "<null>" | _ => p end) ++ pairs v letters.
Definition the_end : bytes := txt "END" ++ [13%N; 10%N].

(* keys whose operations are counted: the prefix is a name; without prefix the key does not start with a hyphen *)
Definition name_byte (c : N) : Prop :=
  (97 <= c <= 122 \/ 65 <= c <= 90 \/ 48 <= c <= 57 \/ c = 95 \/ c = 45 \/ c = 43 \/ c = 46)%N.
Definition named_key (key : bytes) : Prop := hd 0%N key <> 45%N /\ Forall name_byte (pre key).
Definition keys_of (h : list ev) : list bytes := flat_map (fun e => match e with EOp _ _ key => [key] | _ => [] end) h.
End Tally.
