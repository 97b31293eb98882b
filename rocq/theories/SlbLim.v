(* How much memory is taken for slabs. *)
From Verif Require Import Base SlbModel SlbSpec.
Open Scope Z_scope.
Ltac Zify.zify_post_hook ::= Z.div_mod_to_equations.

(* the quantities of this file are the same *)
Definition quiet (s s' : st) : Prop :=
  s_malloced s' = s_malloced s /\ s_memlimit s' = s_memlimit s /\ s_largest s' = s_largest s /\
  s_arena s' = s_arena s /\ s_imax s' = s_imax s /\
  (forall i, c_size (s_cls s' i) = c_size (s_cls s i) /\ c_per (s_cls s' i) = c_per (s_cls s i) /\
             c_slabs (s_cls s' i) = c_slabs (s_cls s i) /\ c_rsvd (s_cls s' i) = c_rsvd (s_cls s i)).

Lemma quiet_refl s : quiet s s. Proof. repeat split; reflexivity. Qed.
Lemma quiet_trans a b c : quiet a b -> quiet b c -> quiet a c.
Proof.
  intros (A1 & A2 & A3 & A4 & A5 & A6) (B1 & B2 & B3 & B4 & B5 & B6).
  do 5 (split; [congruence|]). intro i. destruct (A6 i) as (? & ? & ? & ?), (B6 i) as (? & ? & ? & ?). repeat split; congruence.
Qed.
Lemma quiet_sm s m u f p : quiet s (set_sm s m u f p). Proof. repeat split; reflexivity. Qed.
Lemma quiet_mem s m : quiet s (set_mem s m). Proof. repeat split; reflexivity. Qed.
Lemma quiet_blks s b c : quiet s (set_blks s b c). Proof. repeat split; reflexivity. Qed.
Lemma quiet_ssl s x : quiet s (set_ssl s x). Proof. repeat split; reflexivity. Qed.
Lemma quiet_upd_ssl s : quiet s (upd_ssl s).
Proof. unfold upd_ssl. destruct (s_lim s >? 0); [apply quiet_ssl|apply quiet_refl]. Qed.
Lemma quiet_cls s id p : c_size p = c_size (s_cls s id) -> c_per p = c_per (s_cls s id) ->
  c_slabs p = c_slabs (s_cls s id) -> c_rsvd p = c_rsvd (s_cls s id) -> quiet s (set_cls s id p).
Proof.
  intros E1 E2 E3 E4. do 5 (split; [reflexivity|]). intro i. cbn [set_cls s_cls]. unfold upd.
  destruct (Z.eqb_spec i id) as [->|]; repeat split; auto.
Qed.
Lemma quiet_chunk_free s a size id : quiet s (chunk_free s a size id).
Proof. apply quiet_cls; reflexivity. Qed.

(* ---- the limit *)
Definition ids (s : st) : list Z := map Z.of_nat (seq 1 (Z.to_nat (s_largest s))).
Definition slab_len (s : st) (i : Z) : Z := c_size (s_cls s i) * c_per (s_cls s i).
Definition beyond (s : st) (i : Z) : Z := Z.min (c_slabs (s_cls s i)) (c_rsvd (s_cls s i)) * slab_len s i.
(* slabs of class 0 beyond those at the time its reserve was defined *)
Definition share (b : Z) : Z := Z.max 4 (b / 100 * 5).

Lemma sum_ext (f g : Z -> Z) l : (forall i, In i l -> f i = g i) -> sum (map f l) = sum (map g l).
Proof. induction l as [|i l IH]; intro H; cbn [map sum]; [reflexivity|]. rewrite (H i (or_introl eq_refl)), IH; [reflexivity|]. intros; apply H; right; assumption. Qed.
Lemma sum_le (f g : Z -> Z) l : (forall i, In i l -> f i <= g i) -> sum (map f l) <= sum (map g l).
Proof.
  induction l as [|i l IH]; intro H; cbn [map sum]; [lia|]. pose proof (H i (or_introl eq_refl)).
  assert (sum (map f l) <= sum (map g l)) by (apply IH; intros; apply H; right; assumption). lia.
Qed.
Lemma sum_bump (f g : Z -> Z) l k d : NoDup l -> In k l -> (forall i, i <> k -> f i = g i) -> g k = f k + d -> sum (map g l) = sum (map f l) + d.
Proof.
  induction l as [|i l IH]; intros N Hk H E; [destruct Hk|]. inversion N; subst. cbn [map sum]. destruct Hk as [->|Hk].
  - rewrite (sum_ext g f l); [lia|]. intros j Hj. symmetry. apply H. congruence.
  - rewrite (IH H3 Hk H E), (H i); [lia|congruence].
Qed.
Lemma ids_in s i : In i (ids s) <-> 1 <= i <= s_largest s.
Proof.
  unfold ids. rewrite in_map_iff. split.
  - intros (k & <- & H). apply in_seq in H. lia.
  - intro H. exists (Z.to_nat i). split; [lia|]. apply in_seq. lia.
Qed.
Lemma ids_nd s : NoDup (ids s).
Proof. unfold ids. apply FinFun.Injective_map_NoDup; [intros a b E; lia|apply seq_NoDup]. Qed.

Section Lim.
Variable malloc : Z -> list (Z * Z) -> Z -> option Z.

(* at most one slab is taken in one operation *)
Inductive move (s : st) : st -> Prop :=
| M_quiet s' : quiet s s' -> move s s'
| M_slab s0 s1 s' id seed : quiet s s0 -> newslab malloc s0 id seed = Some s1 -> 0 <= id <= s_largest s -> quiet s1 s' -> move s s'
| M_limit n : move s (set_memlimit s n).


(* allocation of a chunk *)
Lemma chunk_alloc_move s size id seed s' a : 0 <= id <= s_largest s ->
  chunk_alloc malloc s size id seed = Some (s', a) ->
  quiet s s' \/ (exists s1, newslab malloc s id seed = Some s1 /\ quiet s1 s').
Proof.
  intros Hi. unfold chunk_alloc.
  assert (Q : forall s1, match c_slots (s_cls s1 id) with
       | a :: r => Some (set_cls s1 id (mkC (c_size (s_cls s1 id)) (c_per (s_cls s1 id)) r (c_endp (s_cls s1 id)) (c_endn (s_cls s1 id)) (c_slabs (s_cls s1 id))
                                   (c_rsvd (s_cls s1 id)) (c_req (s_cls s1 id) + size)), a)
       | [] =>
          if c_endp (s_cls s1 id) =? 0 then None
          else
            let n := (c_endn (s_cls s1 id) - 1) mod 4294967296 in
            let e := if n =? 0 then 0 else c_endp (s_cls s1 id) + c_size (s_cls s1 id) in
            Some (set_cls s1 id (mkC (c_size (s_cls s1 id)) (c_per (s_cls s1 id)) [] e n (c_slabs (s_cls s1 id))
                                     (c_rsvd (s_cls s1 id)) (c_req (s_cls s1 id) + size)), c_endp (s_cls s1 id))
       end = Some (s', a) -> quiet s1 s').
  { intros s1 H. cbv zeta in H. destruct (c_slots (s_cls s1 id)).
    - destruct (c_endp (s_cls s1 id) =? 0); [discriminate H|]. injection H as <- _. apply quiet_cls; reflexivity.
    - injection H as <- _. apply quiet_cls; reflexivity. }
  destruct (negb (c_endp (s_cls s id) =? 0) || negb (match c_slots (s_cls s id) with [] => true | _ => false end)).
  - intro H. left. apply Q. exact H.
  - destruct (newslab malloc s id seed) as [s1|].
    + intro H. right. exists s1. split; [reflexivity|]. apply Q. exact H.
    + intro H. injection H as <- _. left. apply quiet_refl.
Qed.

Lemma sm_alloc_move s size seed s' a : 0 <= s_largest s -> sm_alloc malloc s size seed = Some (s', a) -> move s s'.
Proof.
  intro Hl. unfold sm_alloc. pose proof (quiet_upd_ssl s) as Q0. set (s0 := upd_ssl s) in *. clearbody s0. cbv zeta.
  destruct (find_class _ _ _ _ _) as [c|]; [|discriminate].
  assert (Fin : forall s1 a1, (if a1 =? 0 then Some (s1, 0)
      else match p_after_alloc (used_add (s_u s1) (slen_of size) (memid (slen_of size) true)) (s_f s1) (s_p s1) (slen_of size) (memid (slen_of size) true) with
           | Some p => Some (set_sm s1 (s_mem s1) (used_add (s_u s1) (slen_of size) (memid (slen_of size) true)) (s_f s1) p, a1)
           | None => None
           end) = Some (s', a) -> quiet s1 s').
  { intros s1 a1 H. destruct (a1 =? 0); [injection H as <- _; apply quiet_refl|].
    destruct (p_after_alloc _ _ _ _ _); [|discriminate H]. injection H as <- _. apply quiet_sm. }
  destruct (fl_head (f_sl (s_f s0) c) =? 0).
  - unfold blck_alloc. destruct (chunk_alloc malloc s0 BLK 0 seed) as [[s1 b]|] eqn:E; [|discriminate].
    apply chunk_alloc_move in E; [|destruct Q0 as (_ & _ & -> & _); lia].
    assert (Q : forall s2, quiet s1 s2 -> quiet s2 s' -> move s s').
    { intros s2 Q1 Q2. destruct E as [E|(s3 & N & E)].
      - apply M_quiet. exact (quiet_trans _ _ _ Q0 (quiet_trans _ _ _ E (quiet_trans _ _ _ Q1 Q2))).
      - eapply M_slab; [exact Q0|exact N|lia|]. exact (quiet_trans _ _ _ E (quiet_trans _ _ _ Q1 Q2)). }
    destruct (b =? 0) eqn:Eb.
    + rewrite ?Eb. intro H. apply (Q s1); [apply quiet_refl|]. apply (Fin s1 0). exact H.
    + rewrite Eb. destruct (free_slot_link _ _ _ _ _ _) as [[[m f] p]|]; [|discriminate]. intro H.
      eapply Q; [|apply (Fin _ _ H)]. eapply quiet_trans; [apply quiet_blks|apply quiet_sm].
  - assert (Q : forall s2, quiet s0 s2 -> quiet s2 s' -> move s s').
    { intros s2 Q1 Q2. apply M_quiet. exact (quiet_trans _ _ _ Q0 (quiet_trans _ _ _ Q1 Q2)). }
    destruct (_ <? slen_of size); [discriminate|].
    destruct (free_slot_unlink _ _ _ _) as [[[m f] p]|]; [|discriminate].
    destruct (_ >? slen_of size).
    + destruct (free_slot_link _ _ _ _ _ _) as [[[m1 f1] p1]|]; [|discriminate]. intro H.
      eapply Q; [|apply (Fin _ _ H)]. apply quiet_sm.
    + intro H. eapply Q; [|apply (Fin _ _ H)]. apply quiet_sm.
Qed.

Lemma sm_free_quiet s a size s' : sm_free s a size = Some s' -> quiet s s'.
Proof.
  unfold sm_free. pose proof (quiet_upd_ssl s) as Q0. set (s0 := upd_ssl s) in *. clearbody s0. cbv zeta.
  destruct (negb _); [discriminate|].
  destruct (merge _ _ _ _ _ _) as [[[[m f] p] [[a1 off1] len1]]|]; [|discriminate].
  assert (Fin : forall s1, quiet s0 s1 -> match used_sub (s_u s1) (slen_of size) (memid (slen_of size) true) with
            | None => None
            | Some u =>
                match p_after_free u (s_f s1) (s_p s1) (slen_of size) (memid (slen_of size) true) with
                | None => None
                | Some p => Some (set_sm s1 (s_mem s1) u (s_f s1) p)
                end
            end = Some s' -> quiet s s').
  { intros s1 Q1 H. destruct (used_sub _ _ _); [|discriminate H]. destruct (p_after_free _ _ _ _ _); [|discriminate H].
    injection H as <-. apply (quiet_trans _ _ _ Q0). apply (quiet_trans _ _ _ Q1). apply quiet_sm. }
  destruct ((off1 >? BHEAD) || (len1 <? BBODY)).
  - destruct (free_slot_link _ _ _ _ _ _) as [[[m1 f1] p1]|]; [|discriminate]. apply Fin. apply quiet_sm.
  - apply Fin. unfold blck_free. eapply quiet_trans; [|apply quiet_blks]. eapply quiet_trans; [|apply quiet_chunk_free]. apply quiet_sm.
Qed.

Lemma step_move s live o s' live' : 0 <= s_largest s -> step malloc s live o = Some (s', live') -> move s s'.
Proof.
  intros Hl. destruct o as [size seed|a size w|a size off w junk|n]; cbn [step].
  - destruct (size <=? 0); [intro H; injection H as <- _; apply M_quiet, quiet_refl|].
    unfold slabs_alloc. set (id := slabs_clsid s size) in *.
    destruct (Z.ltb_spec id 1), (Z.ltb_spec (s_largest s) id); cbn [orb Z.eqb];
      try (intro H1; injection H1 as <- _; apply M_quiet, quiet_refl).
    destruct (size <=? MAX_SM_VALUE_LEN).
    + destruct (sm_alloc malloc s size seed) as [[s1 a]|] eqn:E; [|discriminate]. apply sm_alloc_move in E; [|exact Hl].
      destruct (a =? 0); intro H1; injection H1 as <- _; exact E.
    + destruct (chunk_alloc malloc s size id seed) as [[s1 a]|] eqn:E; [|discriminate]. apply chunk_alloc_move in E; [|lia].
      assert (M : move s s1).
      { destruct E as [E|(s2 & N & E)]; [apply M_quiet; exact E|]. eapply M_slab; [apply quiet_refl|exact N|lia|exact E]. }
      destruct (a =? 0); intro H1; injection H1 as <- _; exact M.
  - destruct (existsb (eq_area (a, size)) live); [|intro H; injection H as <- _; apply M_quiet, quiet_refl].
    unfold slabs_free. set (s0 := set_mem s (write_mem (s_mem s) a w 0)). assert (Q0 : quiet s s0) by apply quiet_mem.
    destruct ((slabs_clsid s0 size <? 1) || (s_largest s0 <? slabs_clsid s0 size)).
    + intro H; injection H as <- _; apply M_quiet; exact Q0.
    + destruct (size <=? MAX_SM_VALUE_LEN).
      * destruct (sm_free s0 a size) as [s1|] eqn:E; [|discriminate]. apply sm_free_quiet in E. intro H; injection H as <- _.
        apply M_quiet. exact (quiet_trans _ _ _ Q0 E).
      * intro H; injection H as <- _. apply M_quiet. eapply quiet_trans; [exact Q0|apply quiet_chunk_free].
  - match goal with |- (if ?c then _ else _) = _ -> _ => destruct c end; intro H; injection H as <- _; apply M_quiet; [apply quiet_mem|apply quiet_refl].
  - intro H; injection H as <- _. apply M_limit.
Qed.

Record LimInv (s : st) : Prop := mkLim
  { l_pos : forall i, 0 <= i <= s_largest s -> 0 <= c_slabs (s_cls s i) /\ 0 <= c_rsvd (s_cls s i) /\ 0 <= slab_len s i;
    l_mal : 0 <= s_malloced s;
    l_res : exists b, 0 <= b <= c_slabs (s_cls s 0) /\
       (c_rsvd (s_cls s 0) = 0 \/ c_rsvd (s_cls s 0) = b + share b) /\
       (s_memlimit s = 0 \/
        s_malloced s <= s_memlimit s + sum (map (beyond s) (ids s)) +
          Z.max 0 (Z.min (c_slabs (s_cls s 0)) (c_rsvd (s_cls s 0)) - b) * slab_len s 0) }.

Lemma lim_quiet s s' : quiet s s' -> LimInv s -> LimInv s'.
Proof.
  intros (E1 & E2 & E3 & E4 & E5 & E6) [A B (b & C1 & C2 & C3)].
  assert (Sl : forall i, slab_len s' i = slab_len s i) by (intro i; unfold slab_len; destruct (E6 i) as (-> & -> & _); reflexivity).
  destruct (E6 0) as (F1 & F2 & F3 & F4).
  split.
  - intro i. rewrite E3, Sl. destruct (E6 i) as (_ & _ & -> & ->). apply A.
  - rewrite E1. exact B.
  - exists b. rewrite F3, F4, E1, E2, Sl. unfold ids. rewrite E3. fold (ids s).
    rewrite (sum_ext (beyond s') (beyond s)); [auto|]. intros i _. unfold beyond. rewrite Sl. destruct (E6 i) as (_ & _ & -> & ->). reflexivity.
Qed.

Lemma lim_define s : LimInv s -> 0 <= s_largest s -> LimInv (define_rsvd s).
Proof.
  intros [A B (b & C1 & C2 & C3)] Hl. unfold define_rsvd.
  assert (I : LimInv s) by (split; [exact A|exact B|exists b; auto]).
  destruct ((s_memlimit s <=? s_malloced s) || (s_memlimit s - s_malloced s <? s_resv s)); [|exact I].
  destruct (Z.eqb_spec (c_rsvd (s_cls s 0)) 0) as [E|]; [|exact I]. clear I.
  set (z := s_cls s 0) in *. cbv zeta.
  set (add := if c_slabs z / 100 * 5 <? 4 then 4 else c_slabs z / 100 * 5).
  assert (Ea : add = share (c_slabs z)) by (unfold add, share; destruct (Z.ltb_spec (c_slabs z / 100 * 5) 4); lia).
  set (s' := set_limits _ _ _).
  assert (Sl : forall i, slab_len s' i = slab_len s i).
  { intro i. unfold slab_len, s'. cbn [set_limits set_cls s_cls]. unfold upd. destruct (Z.eqb_spec i 0) as [->|]; reflexivity. }
  assert (Ez : s_cls s' 0 = mkC (c_size z) (c_per z) (c_slots z) (c_endp z) (c_endn z) (c_slabs z) (c_slabs z + add) (c_req z)) by reflexivity.
  assert (En : forall i, i <> 0 -> s_cls s' i = s_cls s i).
  { intros i Ni. unfold s'. cbn [set_limits set_cls s_cls]. unfold upd. destruct (Z.eqb_spec i 0); [contradiction|reflexivity]. }
  destruct (A 0 ltac:(lia)) as (P1 & P2 & P3). fold z in P1, P2.
  split.
  - intros i Hi. rewrite Sl. destruct (Z.eq_dec i 0) as [->|N]; [rewrite Ez; cbn [c_slabs c_rsvd]; unfold share in Ea; lia|rewrite (En i N); apply A; exact Hi].
  - exact B.
  - exists (c_slabs z). rewrite Ez. cbn [c_slabs c_rsvd]. split; [lia|]. split; [right; lia|].
    change (s_memlimit s') with (s_memlimit s). change (s_malloced s') with (s_malloced s). change (ids s') with (ids s).
    rewrite Sl. destruct C3 as [C3|C3]; [left; exact C3|right].
    rewrite (sum_ext (beyond s') (beyond s)).
    + replace (Z.min (c_slabs z) (c_slabs z + add) - c_slabs z) with 0 by (unfold share in Ea; lia).
      replace (Z.max 0 (Z.min (c_slabs z) (c_rsvd z) - b)) with 0 in C3 by lia. lia.
    + intros i Hi. apply ids_in in Hi. unfold beyond. rewrite Sl, (En i) by lia. reflexivity.
Qed.

Lemma lim_newslab s id seed s' : LimInv s -> 0 <= id <= s_largest s -> newslab malloc s id seed = Some s' -> LimInv s'.
Proof.
  intros [A B (b & C1 & C2 & C3)] Hi. unfold newslab. set (p := s_cls s id) in *. cbv zeta.
  fold (slab_len s id) in *. change (c_size p * c_per p) with (slab_len s id). set (len := slab_len s id) in *.
  destruct (A id Hi) as (P1 & P2 & P3). fold p in P1, P2. fold len in P3. destruct (A 0 ltac:(lia)) as (Z1 & Z2 & Z3).
  destruct (negb (s_memlimit s =? 0) && (s_memlimit s <? s_malloced s + len) && (c_rsvd p <=? c_slabs p)) eqn:Ec; [discriminate|].
  destruct (memory_allocate malloc s seed len) as [[s1 ptr]|] eqn:Em; [|discriminate].
  assert (M : s_malloced s1 = s_malloced s /\ s_memlimit s1 = s_memlimit s /\ s_largest s1 = s_largest s /\ s_cls s1 = s_cls s).
  { unfold memory_allocate in Em. destruct (s_arena s) as [[cur avail]|].
    - destruct (avail <? len); [discriminate Em|]. injection Em as <- _. auto.
    - destruct (malloc seed (s_pages s) len); [|discriminate Em]. injection Em as <- _. auto. }
  destruct M as (M1 & M2 & M3 & M4). intro H. injection H as <-.
  apply lim_define.
  2: { match goal with |- 0 <= s_largest (if ?c then _ else _) => destruct c end; cbn [set_limits s_largest]; lia. }
  set (p1 := mkC (c_size p) (c_per p) (c_slots p) ptr (c_per p) (c_slabs p + 1) (c_rsvd p) (c_req p)).
  set (s2 := mkS _ _ _ _ _ _ _ _ _ _ _ _ _ _ _ _).
  assert (I2 : LimInv s2).
  { assert (Ei : s_cls s2 id = p1) by (unfold s2; cbn [s_cls]; unfold upd; rewrite Z.eqb_refl; reflexivity).
    assert (En : forall i, i <> id -> s_cls s2 i = s_cls s i).
    { intros i N. unfold s2; cbn [s_cls]; unfold upd. destruct (Z.eqb_spec i id); [contradiction|rewrite M4; reflexivity]. }
    assert (Sl : forall i, slab_len s2 i = slab_len s i).
    { intro i. unfold slab_len. destruct (Z.eq_dec i id) as [->|N]; [rewrite Ei; reflexivity|rewrite (En i N); reflexivity]. }
    assert (Eids : ids s2 = ids s) by (unfold ids, s2; cbn [s_largest]; rewrite M3; reflexivity).
    split.
    - intros i Hi'. unfold s2 in Hi'. cbn [s_largest] in Hi'. rewrite M3 in Hi'. rewrite Sl. destruct (A i Hi') as (X1 & X2 & X3).
      destruct (Z.eq_dec i id) as [->|N]; [rewrite Ei; cbn [p1 c_slabs c_rsvd]; lia|rewrite (En i N); auto].
    - unfold s2; cbn [s_malloced]. lia.
    - exists b. rewrite Sl, Eids. unfold s2 at 4 5 6. cbn [s_malloced s_memlimit]. rewrite M1, M2.
      assert (Bi : forall i, beyond s i <= beyond s2 i \/ ~ 0 <= i <= s_largest s).
      { intro i. destruct (Z.eq_dec i id) as [->|N].
        - left. unfold beyond. rewrite Sl, Ei. cbn [p1 c_slabs c_rsvd]. fold p. fold len. nia.
        - left. unfold beyond. rewrite Sl, (En i N). lia. }
      assert (Ss : sum (map (beyond s) (ids s)) <= sum (map (beyond s2) (ids s))).
      { apply sum_le. intros i Hi'. apply ids_in in Hi'. destruct (Bi i); [assumption|lia]. }
      assert (S0 : 0 <= sum (map (beyond s) (ids s))).
      { apply Z.le_trans with (sum (map (fun _ => 0) (ids s))).
        - clear. induction (ids s); cbn [map sum]; lia.
        - apply sum_le. intros i Hi'. apply ids_in in Hi'. destruct (A i ltac:(lia)) as (X1 & X2 & X3). unfold beyond. nia. }
      destruct (Z.eq_dec id 0) as [E0|N0].
      + rewrite E0 in Ei. rewrite Ei. cbn [p1 c_slabs c_rsvd]. assert (Ep : s_cls s 0 = p) by (unfold p; rewrite E0; reflexivity).
        assert (El : slab_len s 0 = len) by (unfold len; rewrite E0; reflexivity). rewrite Ep in C1, C2, C3. rewrite El in C3. rewrite El.
        split; [lia|]. split; [exact C2|]. destruct C3 as [C3|C3]; [left; exact C3|].
        destruct (Z.eq_dec (s_memlimit s) 0) as [|Nl]; [left; assumption|]. right.
        apply andb_false_iff in Ec as [Ec|Ec]; [apply andb_false_iff in Ec as [Ec|Ec]|].
        * apply negb_false_iff, Z.eqb_eq in Ec. contradiction.
        * apply Z.ltb_ge in Ec. nia.
        * apply Z.leb_gt in Ec. nia.
      + assert (E1 : s_cls s2 0 = s_cls s 0) by (apply En; congruence). rewrite E1.
        split; [exact C1|]. split; [exact C2|]. destruct C3 as [C3|C3]; [left; exact C3|].
        destruct (Z.eq_dec (s_memlimit s) 0) as [|Nl]; [left; assumption|]. right.
        apply andb_false_iff in Ec as [Ec|Ec]; [apply andb_false_iff in Ec as [Ec|Ec]|].
        * apply negb_false_iff, Z.eqb_eq in Ec. contradiction.
        * apply Z.ltb_ge in Ec. nia.
        * apply Z.leb_gt in Ec.
          rewrite (sum_bump (beyond s) (beyond s2) (ids s) id len); [lia|apply ids_nd|apply ids_in; lia| |].
          -- intros i N. unfold beyond. rewrite Sl, (En i N). reflexivity.
          -- unfold beyond. rewrite Sl, Ei. cbn [p1 c_slabs c_rsvd]. fold p. fold len. nia. }
  match goal with |- LimInv (if ?c then _ else _) => destruct c end; [|exact I2].
  apply (lim_quiet s2); [repeat split; reflexivity|exact I2].
Qed.

Lemma lim_limit s n : LimInv s -> 0 <= s_largest s -> LimInv (set_memlimit s n).
Proof.
  intros [A B (b & C1 & C2 & C3)] Hl. unfold set_memlimit.
  assert (I : LimInv s) by (split; [exact A|exact B|exists b; auto]).
  destruct (s_arena s); [exact I|]. destruct (Z.ltb_spec n (s_malloced s + s_malloced s / 10)) as [|Hn]; [exact I|]. cbv zeta.
  match goal with |- LimInv (if ?c then _ else _) => destruct c end; [exact I|].
  set (s' := mkS _ _ _ _ _ _ _ _ _ _ _ _ _ _ _ _).
  assert (Sl : forall i, slab_len s' i = slab_len s i).
  { intro i. unfold slab_len, s'. cbn [s_cls]. unfold upd. destruct (Z.eqb_spec i 0) as [->|]; reflexivity. }
  assert (En : forall i, c_slabs (s_cls s' i) = c_slabs (s_cls s i) /\ (c_rsvd (s_cls s' i) = c_rsvd (s_cls s i) \/ (i = 0 /\ c_rsvd (s_cls s' i) = 0))).
  { intros i. unfold s'. cbn [s_cls]. unfold upd. destruct (Z.eqb_spec i 0) as [->|]; cbn [c_slabs c_rsvd]; auto. }
  assert (A' : forall i, 0 <= i <= s_largest s -> 0 <= c_slabs (s_cls s' i) /\ 0 <= c_rsvd (s_cls s' i) /\ 0 <= slab_len s' i).
  { intros i Hi. rewrite Sl. destruct (En i) as [-> X], (A i Hi) as (X1 & X2 & X3). lia. }
  split; [exact A'|exact B|]. exists 0.
  assert (R0 : c_rsvd (s_cls s' 0) = 0) by reflexivity.
  destruct (A 0 ltac:(lia)) as (Z1 & Z2 & Z3). destruct (En 0) as [E0 _]. rewrite E0, R0.
  split; [lia|]. split; [auto|]. right. change (s_malloced s') with (s_malloced s). change (s_memlimit s') with n. change (ids s') with (ids s).
  assert (S0 : 0 <= sum (map (beyond s') (ids s))).
  { apply Z.le_trans with (sum (map (fun _ => 0) (ids s))).
    - clear. induction (ids s); cbn [map sum]; lia.
    - apply sum_le. intros i Hi. apply ids_in in Hi. destruct (A' i ltac:(lia)) as (X1 & X2 & X3). unfold beyond. nia. }
  rewrite Sl. nia.
Qed.

Lemma lim_step s live o s' live' : LimInv s -> 0 <= s_largest s -> step malloc s live o = Some (s', live') ->
  LimInv s' /\ s_largest s' = s_largest s.
Proof.
  intros I Hl H. apply step_move in H; [|exact Hl]. destruct H as [s' Q|s0 s1 s' id seed Q0 N R Q1|n].
  - split; [apply (lim_quiet s); assumption|apply Q].
  - assert (L0 : s_largest s0 = s_largest s) by apply Q0.
    split.
    + apply (lim_quiet s1); [exact Q1|]. apply (lim_newslab s0 id seed); [apply (lim_quiet s); assumption|lia|exact N].
    + transitivity (s_largest s1); [apply Q1|]. rewrite <- L0. revert N. unfold newslab.
      destruct (_ && _ && _); [discriminate|]. unfold memory_allocate.
      assert (D : forall x, s_largest (define_rsvd x) = s_largest x).
      { intro x. unfold define_rsvd. destruct (_ || _); [|reflexivity]. destruct (_ =? 0); reflexivity. }
      destruct (s_arena s0) as [[cur avail]|].
      * destruct (_ <? _); [discriminate|]. intro H. injection H as <-. rewrite D.
        match goal with |- s_largest (if ?c then _ else _) = _ => destruct c end; reflexivity.
      * destruct (malloc _ _ _); [|discriminate]. intro H. injection H as <-. rewrite D.
        match goal with |- s_largest (if ?c then _ else _) = _ => destruct c end; reflexivity.
  - split; [apply lim_limit; assumption|]. unfold set_memlimit. destruct (s_arena s); [reflexivity|].
    destruct (n <? _); [reflexivity|]. cbv zeta. destruct (_ && _); reflexivity.
Qed.

Lemma lim_run ops : forall s live s' live', LimInv s -> 0 <= s_largest s -> run malloc s live ops = Some (s', live') ->
  LimInv s' /\ s_largest s' = s_largest s.
Proof.
  induction ops as [|o ops IH]; intros s live s' live' I Hl H; cbn [run] in H; [injection H as <- _; auto|].
  destruct (step malloc s live o) as [[s1 l1]|] eqn:E; [|discriminate H].
  destruct (lim_step _ _ _ _ _ I Hl E) as [I1 L1]. destruct (IH s1 l1 s' live' I1 ltac:(lia) H) as [I2 L2]. split; [exact I2|congruence].
Qed.

(* ---- what never changes, and what is taken *)
Definition fixed (s s' : st) : Prop :=
  s_largest s' = s_largest s /\ s_imax s' = s_imax s /\
  (forall i, slab_len s' i = slab_len s i /\ (i <> 0 -> c_rsvd (s_cls s' i) = c_rsvd (s_cls s i))).
Lemma fixed_trans a b c : fixed a b -> fixed b c -> fixed a c.
Proof.
  intros (A1 & A2 & A3) (B1 & B2 & B3). split; [congruence|]. split; [congruence|]. intro i.
  destruct (A3 i) as [X1 X2], (B3 i) as [Y1 Y2]. split; [congruence|]. intro N. rewrite Y2, X2; auto.
Qed.
Lemma quiet_fixed s s' : quiet s s' -> fixed s s'.
Proof.
  intros (E1 & E2 & E3 & E4 & E5 & E6). split; [exact E3|]. split; [exact E5|]. intro i. unfold slab_len.
  destruct (E6 i) as (-> & -> & _ & ->). auto.
Qed.

(* memory taken at once: what is left *)
Definition arena_ok (lim : Z) (pre : bool) (s : st) : Prop :=
  match s_arena s with Some (_, avail) => s_malloced s + avail <= lim /\ 0 <= avail | None => pre = false end.
Record OwnInv (lim : Z) (pre : bool) (s : st) : Prop := mkOwn
  { o_0 : c_slabs (s_cls s 0) * slab_len s 0 <= s_malloced s;
    o_len : forall i, 0 <= slab_len s i;
    o_ar : arena_ok lim pre s }.

Lemma own_quiet lim pre s s' : quiet s s' -> OwnInv lim pre s -> OwnInv lim pre s'.
Proof.
  intros Q [A B C]. pose proof (quiet_fixed _ _ Q) as (_ & _ & F). destruct Q as (E1 & E2 & E3 & E4 & E5 & E6).
  split.
  - destruct (F 0) as [-> _]. destruct (E6 0) as (_ & _ & -> & _). rewrite E1. exact A.
  - intro i. destruct (F i) as [-> _]. apply B.
  - unfold arena_ok in *. rewrite E4, E1. exact C.
Qed.

Lemma define_parts s : s_malloced (define_rsvd s) = s_malloced s /\ s_arena (define_rsvd s) = s_arena s /\ s_largest (define_rsvd s) = s_largest s /\
  s_imax (define_rsvd s) = s_imax s /\
  (forall i, c_slabs (s_cls (define_rsvd s) i) = c_slabs (s_cls s i) /\ slab_len (define_rsvd s) i = slab_len s i /\
             (i <> 0 -> c_rsvd (s_cls (define_rsvd s) i) = c_rsvd (s_cls s i))).
Proof.
  unfold define_rsvd. destruct (_ || _); [|repeat split; auto]. destruct (c_rsvd (s_cls s 0) =? 0); [|repeat split; auto].
  do 4 (split; [reflexivity|]). intro i. unfold slab_len. cbn [set_limits set_cls s_cls]. unfold upd.
  destruct (Z.eqb_spec i 0) as [->|]; cbn [c_slabs c_size c_per c_rsvd]; auto. split; [reflexivity|]. split; [reflexivity|]. contradiction.
Qed.

Lemma newslab_own lim pre s id seed s' : OwnInv lim pre s -> newslab malloc s id seed = Some s' -> OwnInv lim pre s' /\ fixed s s'.
Proof.
  intros [A B C]. unfold newslab. set (p := s_cls s id) in *. cbv zeta. change (c_size p * c_per p) with (slab_len s id). set (len := slab_len s id) in *.
  destruct (negb (s_memlimit s =? 0) && (s_memlimit s <? s_malloced s + len) && (c_rsvd p <=? c_slabs p)); [discriminate|].
  destruct (memory_allocate malloc s seed len) as [[s1 ptr]|] eqn:Em; [|discriminate].
  assert (M : s_malloced s1 = s_malloced s /\ s_largest s1 = s_largest s /\ s_cls s1 = s_cls s /\ s_imax s1 = s_imax s /\
              match s_arena s1 with Some (_, avail) => s_malloced s + len + avail <= lim /\ 0 <= avail | None => pre = false end).
  { unfold memory_allocate in Em. unfold arena_ok in C. pose proof (B id) as Bi. fold len in Bi. destruct (s_arena s) as [[cur avail]|] eqn:Ea.
    - destruct (Z.ltb_spec avail len); [discriminate Em|]. injection Em as <- _. cbn [s_malloced s_largest s_cls s_imax s_arena].
      do 4 (split; [reflexivity|]).
      set (len' := if len mod 8 =? 0 then len else len + (8 - len mod 8)).
      change (s_malloced s + len + (if len' <? avail then avail - len' else 0) <= lim /\ 0 <= (if len' <? avail then avail - len' else 0)).
      assert (len <= len') by (unfold len'; destruct (len mod 8 =? 0); lia).
      clearbody len' len. destruct (Z.ltb_spec len' avail); lia.
    - destruct (malloc seed (s_pages s) len); [|discriminate Em]. injection Em as <- _. rewrite Ea. auto. }
  destruct M as (M1 & M3 & M4 & M6 & M5). intro H. injection H as <-.
  set (s2 := mkS _ _ _ _ _ _ _ _ _ _ _ _ _ _ _ _).
  match goal with |- context [define_rsvd ?x] => set (s3 := x) end.
  assert (E3 : s_malloced s3 = s_malloced s + len /\ s_arena s3 = s_arena s1 /\ s_cls s3 = s_cls s2 /\ s_largest s3 = s_largest s /\ s_imax s3 = s_imax s).
  { unfold s3. match goal with |- context [if ?c then set_limits _ _ _ else _] => destruct c end; cbn [set_limits s2 s_malloced s_arena s_cls s_largest s_imax]; rewrite ?M1; auto. }
  destruct E3 as (F1 & F2 & F3 & F4 & F5).
  destruct (define_parts s3) as (D1 & D2 & D3 & D4 & D5).
  assert (Ei : s_cls s3 id = mkC (c_size p) (c_per p) (c_slots p) ptr (c_per p) (c_slabs p + 1) (c_rsvd p) (c_req p)).
  { rewrite F3. unfold s2; cbn [s_cls]; unfold upd; rewrite Z.eqb_refl; reflexivity. }
  assert (En : forall i, i <> id -> s_cls s3 i = s_cls s i).
  { intros i N. rewrite F3. unfold s2; cbn [s_cls]; unfold upd. destruct (Z.eqb_spec i id); [contradiction|rewrite M4; reflexivity]. }
  assert (Sl : forall i, slab_len s3 i = slab_len s i).
  { intro i. unfold slab_len. destruct (Z.eq_dec i id) as [->|N]; [rewrite Ei; reflexivity|rewrite (En i N); reflexivity]. }
  split; [split|].
  - destruct (D5 0) as (-> & -> & _). rewrite D1, Sl, F1. pose proof (B id) as Bi. fold len in Bi.
    destruct (Z.eq_dec 0 id) as [<-|N]; [rewrite Ei; cbn [c_slabs]; unfold len, p in *; lia|rewrite (En 0 N); lia].
  - intro i. destruct (D5 i) as (_ & -> & _). rewrite Sl. apply B.
  - unfold arena_ok. rewrite D1, D2, F1, F2. exact M5.
  - split; [congruence|]. split; [congruence|]. intro i. destruct (D5 i) as (_ & -> & X). split; [apply Sl|]. intro N. rewrite (X N).
    destruct (Z.eq_dec i id) as [->|N']; [rewrite Ei; reflexivity|rewrite (En i N'); reflexivity].
Qed.

Lemma own_limit lim pre s n : OwnInv lim pre s -> OwnInv lim pre (set_memlimit s n) /\ fixed s (set_memlimit s n).
Proof.
  intros [A B C]. assert (I : OwnInv lim pre s) by (split; assumption). assert (F : fixed s s) by (repeat split; reflexivity).
  unfold set_memlimit. destruct (s_arena s) eqn:Ea; [auto|]. destruct (n <? _); [auto|]. cbv zeta. destruct (_ && _); [auto|]. clear I F.
  set (s' := mkS _ _ _ _ _ _ _ _ _ _ _ _ _ _ _ _).
  assert (Sl : forall i, slab_len s' i = slab_len s i /\ c_slabs (s_cls s' i) = c_slabs (s_cls s i) /\ (i <> 0 -> c_rsvd (s_cls s' i) = c_rsvd (s_cls s i))).
  { intro i. unfold slab_len, s'. cbn [s_cls]. unfold upd. destruct (Z.eqb_spec i 0) as [->|]; auto. split; [reflexivity|]. split; [reflexivity|contradiction]. }
  split; [split|].
  - destruct (Sl 0) as (-> & -> & _). exact A.
  - intro i. destruct (Sl i) as (-> & _). apply B.
  - unfold arena_ok in *. rewrite Ea in C. exact C.
  - split; [reflexivity|]. split; [reflexivity|]. intro i. destruct (Sl i) as (X & _ & Y). auto.
Qed.

Lemma own_run lim pre ops : forall s live s' live', OwnInv lim pre s -> 0 <= s_largest s -> run malloc s live ops = Some (s', live') ->
  OwnInv lim pre s' /\ fixed s s'.
Proof.
  induction ops as [|o ops IH]; intros s live s' live' I Hl H; cbn [run] in H; [injection H as <- _; split; [exact I|repeat split; reflexivity]|].
  destruct (step malloc s live o) as [[s1 l1]|] eqn:E; [|discriminate H].
  assert (S1 : OwnInv lim pre s1 /\ fixed s s1).
  { apply step_move in E; [|exact Hl]. destruct E as [s1 Q|s0 s2 s1 id seed Q0 N R Q1|n].
    - split; [apply (own_quiet lim pre s); assumption|apply quiet_fixed; exact Q].
    - destruct (newslab_own lim pre s0 id seed s2 (own_quiet lim pre s s0 Q0 I) N) as [I2 F2].
      split; [apply (own_quiet lim pre s2); assumption|]. apply (fixed_trans _ s0); [apply quiet_fixed; exact Q0|].
      apply (fixed_trans _ s2); [exact F2|apply quiet_fixed; exact Q1].
    - apply own_limit. exact I. }
  destruct S1 as [I1 F1]. destruct (IH s1 l1 s' live' I1) as [I2 F2]; [destruct F1 as [-> _]; exact Hl|exact H|].
  split; [exact I2|apply (fixed_trans _ s1); assumption].
Qed.
End Lim.
