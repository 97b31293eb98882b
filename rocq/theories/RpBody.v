(* Bodies: redoing the record of a change gives the changed body *)
From Verif Require Import Base RpModel RpSpec.
From Verif Require BtModel BtSpec BtOrder BtOps BtIns BtRefine BtRun BtGet2 ListModel ListSpec.
From Coq Require Import Permutation.
Local Open Scope nat_scope.

(* ---------- what every live body satisfies ---------- *)

Definition wf_bt (s : BtSpec.sp) : Prop :=
  BtSpec.sorted (BtSpec.s_el s) /\ length (BtSpec.s_el s) <= BtSpec.s_max s /\ 1 <= BtSpec.s_max s /\
  Forall (fun e => BtSpec.type_of (BtModel.bk e) = BtSpec.s_type s) (BtSpec.s_el s) /\ BtSpec.s_range s = None.
Definition wf_body (b : body) : Prop :=
  match b with
  | KV _ => True
  | Lst mx _ _ l => (1 <= mx /\ ListSpec.size l <= mx)%Z
  | St mx _ l => 1 <= mx /\ length l <= mx /\ NoDup l
  | Mp mx _ l => 1 <= mx /\ length l <= mx /\ NoDup (map fst l)
  | Bt _ s => wf_bt s
  end.

(* ---------- same_body is an equivalence ---------- *)

Lemma same_refl b : same_body b b.
Proof. destruct b; cbn; auto 10. Qed.
Lemma same_sym a b : same_body a b -> same_body b a.
Proof.
  destruct a, b; cbn; try tauto.
  - congruence.
  - intuition congruence.
  - intros (-> & -> & H). auto using Permutation_sym.
  - intros (-> & -> & H). auto using Permutation_sym.
  - intros (-> & A & B & C & D & F). rewrite <- A, <- D. intuition congruence.
Qed.
Lemma same_trans a b c : same_body a b -> same_body b c -> same_body a c.
Proof.
  destruct a, b; cbn; try tauto; destruct c; cbn; try tauto.
  - congruence.
  - intuition congruence.
  - intros (-> & -> & H) (-> & -> & H'). split; [auto|]. split; [auto|]. eapply Permutation_trans; eassumption.
  - intros (-> & -> & H) (-> & -> & H'). split; [auto|]. split; [auto|]. eapply Permutation_trans; eassumption.
  - intros (-> & A & B & C & D & F) (-> & A' & B' & C' & D' & F'). rewrite A, B, C, D. repeat (split; [assumption|]). rewrite A, D in F. intuition congruence.
Qed.
Lemma same_shell a b : same_body a b -> same_body (shell a) (shell b).
Proof. destruct a, b; cbn; try tauto; intuition (try congruence; auto). Qed.

(* ---------- sets and maps ---------- *)

Lemma memb_In v l : memb v l = true <-> In v l.
Proof.
  unfold memb. rewrite existsb_exists. split.
  - intros (x & H & E). apply beqb_eq in E. subst. exact H.
  - intros H. exists v. split; [exact H|apply beqb_refl].
Qed.
Lemma memb_perm v l l' : Permutation l l' -> memb v l = memb v l'.
Proof.
  intros P. destruct (memb v l) eqn:A, (memb v l') eqn:B; auto.
  - apply memb_In in A. apply (Permutation_in _ P) in A. apply memb_In in A. congruence.
  - apply memb_In in B. apply (Permutation_in _ (Permutation_sym P)) in B. apply memb_In in B. congruence.
Qed.
Lemma perm_filter {A} (f : A -> bool) l l' : Permutation l l' -> Permutation (filter f l) (filter f l').
Proof.
  induction 1; cbn.
  - constructor.
  - destruct (f x); auto.
  - destruct (f x), (f y); auto using perm_swap.
  - eapply Permutation_trans; eassumption.
Qed.
Lemma memf_perm v l l' : Permutation l l' -> memf v l = memf v l'.
Proof. intros P. apply memb_perm, Permutation_map, P. Qed.
Lemma is_nil_perm {A} (l l' : list A) : Permutation l l' -> is_nil l = is_nil l'.
Proof. intros P. apply Permutation_length in P. destruct l, l'; cbn in *; congruence. Qed.

Lemma dropped_same drop n a b : same_body a b -> match dropped drop n a, dropped drop n b with Some x, Some y => same_body x y | None, None => True | _, _ => False end.
Proof. intros H. unfold dropped. destruct (drop && n); auto. Qed.

Definition sameo (a b : option body) : Prop := match a, b with Some x, Some y => same_body x y | None, None => True | _, _ => False end.
Lemma sameo_refl a : sameo a a.
Proof. destruct a; cbn; auto using same_refl. Qed.
Lemma sameo_trans a b c : sameo a b -> sameo b c -> sameo a c.
Proof. destruct a, b, c; cbn; try tauto. apply same_trans. Qed.

(* ---------- B+tree steps only look at what same_body keeps ---------- *)

Definition same_bt (s s' : BtSpec.sp) : Prop :=
  BtSpec.s_el s = BtSpec.s_el s' /\ BtSpec.s_max s = BtSpec.s_max s' /\ BtSpec.s_ovf s = BtSpec.s_ovf s' /\
  BtSpec.s_range s = BtSpec.s_range s' /\
  (BtSpec.s_type s = BtSpec.s_type s' \/ BtSpec.s_el s = [] /\ BtSpec.s_range s = None).
Lemma same_bt_refl s : same_bt s s.
Proof. unfold same_bt. auto 10. Qed.
Lemma has_bad s s' k : same_bt s s' -> BtSpec.s_has_type s && BtSpec.s_bad_type s k = BtSpec.s_has_type s' && BtSpec.s_bad_type s' k.
Proof.
  intros (A & B & C & D & F). unfold BtSpec.s_has_type, BtSpec.s_bad_type. rewrite <- A, <- D. destruct F as [<-|(F & G)]; [reflexivity|].
  rewrite F, G. reflexivity.
Qed.
Lemma new_same s s' e : same_bt s s' -> fst (BtSpec.s_new s e) = fst (BtSpec.s_new s' e) /\ same_bt (snd (BtSpec.s_new s e)) (snd (BtSpec.s_new s' e)).
Proof.
  intros (A & B & C & D & F). unfold BtSpec.s_new. rewrite <- A. destruct (BtSpec.s_el s) as [|z l] eqn:EL.
  { split; [reflexivity|]. unfold same_bt. cbn. auto 10. }
  destruct F as [F|(F & _)]; [|discriminate].
  assert (RV : BtSpec.range_verdict s' (BtModel.bk e) = BtSpec.range_verdict s (BtModel.bk e)).
  { unfold BtSpec.range_verdict. rewrite <- A, EL, <- D, <- C. reflexivity. }
  rewrite RV, <- B, <- C.
  assert (W : forall l', same_bt (BtSpec.with_el s l') (BtSpec.with_el s' l')) by (intros; unfold same_bt; cbn; auto 10).
  assert (M : forall x y b, same_bt x y -> same_bt (if b : bool then BtSpec.with_trim x true else x) (if b then BtSpec.with_trim y true else y)).
  { intros x y [] H; [|exact H]. exact H. }
  assert (SS : same_bt s s') by (unfold same_bt; rewrite EL; auto 10).
  destruct (BtSpec.range_verdict s (BtModel.bk e)); cbn [fst snd].
  - destruct (Nat.ltb _ _); [split; [reflexivity|apply W]|]. cbv zeta.
    destruct (BtSpec.drops_low _); [|destruct (BtSpec.drops_high _)].
    + destruct (BtSpec.s_first _); [|split; auto]. destruct (BtSpec.klt _ _); cbn [fst snd]; split; auto.
    + destruct (BtSpec.s_last _); [|split; auto]. destruct (BtSpec.klt _ _); cbn [fst snd]; split; auto.
    + split; auto.
  - split; auto.
  - split; [reflexivity|]. unfold same_bt. cbn. auto 10.
Qed.

Lemma redo_ins_same a b x : same_body a b -> sameo (redo_ins a x) (redo_ins b x).
Proof.
  destruct a, b; cbn [same_body]; try tauto; destruct x; cbn [redo_ins sameo]; auto.
  - intros (-> & -> & -> & ->). apply sameo_refl.
  - intros (-> & -> & P). rewrite (Permutation_length P), (memb_perm v _ _ P). destruct (_ || _); cbn; auto.
  - intros (-> & -> & P). rewrite (Permutation_length P), (memf_perm f _ _ P). destruct (memf f l0); cbn.
    + split; [auto|]. split; [auto|]. apply Permutation_map. exact P.
    + destruct (Nat.leb _ _); cbn; auto.
  - intros (-> & H). change (same_bt s s0) in H. cbn [BtSpec.s_step]. rewrite (has_bad _ _ (BtModel.bk e) H). destruct (BtSpec.s_has_type s0 && _); [exact Logic.I|].
    pose proof (new_same s s0 e H) as (N1 & N2). destruct H as (A & B & C & D & F). rewrite A. destruct (BtSpec.lookup _ _).
    + cbn. rewrite B, C, D. repeat (split; [reflexivity|]). rewrite A, D in F. destruct F as [F|(F & G)]; [left; exact F|right; split; [rewrite F; reflexivity|exact G]].
    + destruct (BtSpec.s_new s e) as [r1 q1], (BtSpec.s_new s0 e) as [r2 q2]. cbn [fst snd] in *. subst r2. destruct r1; cbn; auto.
Qed.

Lemma redo_bt_del_same rd s s' r fl ofs cnt drop : same_bt s s' -> sameo (redo_bt_del rd s r fl ofs cnt drop) (redo_bt_del rd s' r fl ofs cnt drop).
Proof.
  intros (A & B & C & D & F). unfold redo_bt_del. rewrite <- A. destruct (BtSpec.s_el s) as [|z l] eqn:EL.
  - apply dropped_same. cbn. rewrite <- A, <- D, EL. auto 10.
  - destruct F as [F|(F & _)]; [|discriminate]. unfold BtSpec.s_bad_type. rewrite <- F. fold (BtSpec.s_bad_type s (BtModel.r_from r)). destruct (BtSpec.s_bad_type s _); [exact Logic.I|].
    cbv zeta. cbn [BtSpec.with_el BtSpec.s_el]. apply dropped_same. cbn. auto 10.
Qed.

Lemma redo_del_same a b x drop : same_body a b -> sameo (redo_del a x drop) (redo_del b x drop).
Proof.
  destruct a, b; cbn [same_body]; try tauto; destruct x; cbn [redo_del sameo]; auto.
  - intros (-> & -> & -> & ->). apply sameo_refl.
  - intros (-> & -> & P). assert (P' : Permutation (rem v l) (rem v l0)) by (apply perm_filter; exact P). cbv zeta. rewrite (is_nil_perm _ _ P').
    apply dropped_same. cbn. auto.
  - intros (-> & -> & P). assert (P' : Permutation (remf f l) (remf f l0)) by (apply perm_filter; exact P). cbv zeta. rewrite (is_nil_perm _ _ P').
    apply dropped_same. cbn. auto.
  - intros (-> & H). apply redo_bt_del_same. exact H.
  - intros (-> & H). apply redo_bt_del_same. exact H.
Qed.

Lemma redo_info_same a b n : same_body a b -> sameo (redo_info a n None) (redo_info b n None).
Proof.
  intros H. destruct a, b; cbn [same_body] in H; try contradiction; destruct n; cbn [redo_info sameo]; try exact H; try exact Logic.I; cbn [same_body].
  - intuition congruence.
  - intuition congruence.
  - intuition congruence.
  - destruct H as (-> & A & B & C & D & F). cbn. rewrite A, D. repeat (split; [reflexivity|]). rewrite A, D in F. exact F.
Qed.

Lemma redo_elems_same xs : forall a b, same_body a b -> sameo (redo_elems a xs) (redo_elems b xs).
Proof.
  induction xs as [|x xs IH]; intros a b H; cbn [redo_elems]; [exact H|]. pose proof (redo_ins_same a b x H) as S1.
  destruct (redo_ins a x), (redo_ins b x); cbn in S1; try tauto. apply IH. exact S1.
Qed.

(* ---------- element inserts ---------- *)

Definition ins_ok (b b' : body) (r : option eins) : Prop :=
  wf_body b' /\ same_body (shell b) (shell b') /\
  match r with Some x => sameo (redo_ins b x) (Some b') | None => same_body b b' end.

Lemma put_at_length p v l : (0 <= p <= ListSpec.size l)%Z -> length (ListSpec.put_at p v l) = S (length l).
Proof.
  intros H. unfold ListSpec.put_at, ListSpec.size in *. rewrite app_length. cbn [length]. rewrite firstn_length, skipn_length. lia.
Qed.
Lemma tl_length {A} (l : list A) : length (tl l) = length l - 1.
Proof. destruct l; cbn; lia. Qed.

Lemma lst_insert_size mx ov i v l : (1 <= mx)%Z -> (ListSpec.size l <= mx)%Z -> (ListSpec.size (snd (ListSpec.insert_result mx ov i v l)) <= mx)%Z.
Proof.
  intros M1 M2. unfold ListSpec.insert_result. set (p := ListSpec.position i (ListSpec.size l)).
  destruct ((p <? 0)%Z || (ListSpec.size l <? p)%Z || (if (0 <=? i)%Z then (mx <=? i)%Z else (mx <? - i)%Z)) eqn:G; [exact M2|].
  apply orb_false_iff in G. destruct G as (G & _). apply orb_false_iff in G. destruct G as (G1 & G2). apply Z.ltb_ge in G1. apply Z.ltb_ge in G2.
  pose proof (put_at_length p v l (conj G1 G2)) as PL.
  destruct (ListSpec.size l <? mx)%Z eqn:Q; [apply Z.ltb_lt in Q; cbn [snd]; unfold ListSpec.size in *; lia|].
  assert (T1 : (ListSpec.size (tl (ListSpec.put_at p v l)) <= mx)%Z) by (unfold ListSpec.size in *; rewrite tl_length; lia).
  assert (T2 : (ListSpec.size (removelast (ListSpec.put_at p v l)) <= mx)%Z) by (unfold ListSpec.size in *; rewrite BtRefine.removelast_length; lia).
  destruct ov; cbn [snd]; auto; destruct (i =? 0)%Z; cbn [snd]; auto; destruct (i =? -1)%Z; cbn [snd]; auto.
Qed.

Lemma lst_ins_ok i v b b' r : wf_body b -> lst_ins i v b = Some (b', r) -> ins_ok b b' r.
Proof.
  destruct b; cbn [lst_ins]; try discriminate. intros (W1 & W2). pose proof (lst_insert_size mx ov i v l W1 W2) as SZ.
  destruct (ListSpec.insert_result mx ov i v l) as [[] l'] eqn:E; intros [= <- <-]; (split; [|split; [cbn; auto|]]); cbn [snd] in SZ; cbn [wf_body]; auto using same_refl.
  cbn [redo_ins]. rewrite Z.eqb_refl. cbn [negb]. rewrite andb_false_r, E. apply sameo_refl.
Qed.

Lemma set_ins_ok v b b' r : wf_body b -> set_ins v b = Some (b', r) -> ins_ok b b' r.
Proof.
  destruct b; cbn [set_ins]; try discriminate. intros (W0 & W1 & W2). destruct (Nat.leb mx (length l) || memb v l) eqn:E; intros [= <- <-].
  - split; [cbn; auto|]. split; [cbn; auto|apply same_refl].
  - split; [|split; [cbn; auto|]].
    + apply orb_false_iff in E. destruct E as (E1 & E2). apply Nat.leb_gt in E1. cbn. split; [exact W0|]. split; [lia|]. constructor; [|exact W2].
      intros H. apply memb_In in H. congruence.
    + cbn [redo_ins]. rewrite E. apply sameo_refl.
Qed.

Lemma putf_keys f v l : map fst (putf f v l) = map fst l.
Proof.
  unfold putf. rewrite map_map. apply map_ext. intros (a & b). cbn [fst]. destruct (beqb_spec f a) as [->|]; reflexivity.
Qed.
Lemma putf_length f v l : length (putf f v l) = length l.
Proof. apply map_length. Qed.

Lemma map_ins_ok rep f v b b' r : wf_body b -> map_ins rep f v b = Some (b', r) -> ins_ok b b' r.
Proof.
  destruct b; cbn [map_ins]; try discriminate. intros (W0 & W1 & W2). destruct (memf f l) eqn:M.
  - destruct rep; intros [= <- <-].
    + split; [cbn; rewrite putf_keys, putf_length; auto|]. split; [cbn; auto|]. cbn [redo_ins]. rewrite M. apply sameo_refl.
    + split; [cbn; auto|]. split; [cbn; auto|apply same_refl].
  - destruct (Nat.leb mx (length l)) eqn:E; intros [= <- <-].
    + split; [cbn; auto|]. split; [cbn; auto|apply same_refl].
    + split; [|split; [cbn; auto|]].
      * apply Nat.leb_gt in E. cbn. split; [exact W0|]. split; [lia|]. constructor; [|exact W2]. intros H. apply memb_In in H. unfold memf in M. congruence.
      * cbn [redo_ins]. rewrite M, E. apply sameo_refl.
Qed.
Lemma map_upd_ok f v b b' r : wf_body b -> map_upd f v b = Some (b', r) -> ins_ok b b' r.
Proof.
  destruct b; cbn [map_upd]; try discriminate. intros (W0 & W1 & W2). destruct (memf f l) eqn:M; intros [= <- <-].
  - split; [cbn; rewrite putf_keys, putf_length; auto|]. split; [cbn; auto|]. cbn [redo_ins]. rewrite M. apply sameo_refl.
  - split; [cbn; auto|]. split; [cbn; auto|apply same_refl].
Qed.
