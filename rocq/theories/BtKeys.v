(* Arithmetic on bkeys: BKEY_DIFF and BKEY_DECR compute the difference and the predecessor *)
From Verif Require Import Base UtilModel BtModel BtSpec BtOrder.
Local Open Scope N_scope.

Definition small (l : bytes) : Prop := Forall (fun x => x < 256) l.
Definition B (n : nat) : N := 256 ^ N.of_nat n.

Lemma B_0 : B 0 = 1. Proof. reflexivity. Qed.
Lemma B_S n : B (S n) = 256 * B n.
Proof. unfold B. rewrite Nat2N.inj_succ, N.pow_succ_r'. reflexivity. Qed.
Lemma B_pos n : 0 < B n.
Proof. unfold B. apply N.neq_0_lt_0. apply N.pow_nonzero. discriminate. Qed.

Lemma num_S n l : num (S n) l = hd 0 l * B n + num n (tl l).
Proof. reflexivity. Qed.
Lemma unnum_S n v : unnum (S n) v = v / B n mod 256 :: unnum n v.
Proof. reflexivity. Qed.

Lemma small_hd l : small l -> hd 0 l < 256.
Proof. intros H. destruct l as [|x l]; [reflexivity|]. apply Forall_cons_iff in H. tauto. Qed.
Lemma small_tl l : small l -> small (tl l).
Proof. intros H. destruct l as [|x l]; [constructor|]. apply Forall_cons_iff in H. tauto. Qed.

Lemma num_lt n : forall l, small l -> num n l < B n.
Proof.
  induction n as [|n IH]; intros l H; [reflexivity|]. rewrite num_S, B_S. pose proof (IH _ (small_tl l H)). pose proof (small_hd l H). nia.
Qed.

Lemma num_nil n : num n [] = 0.
Proof. induction n as [|n IH]; [reflexivity|]. rewrite num_S. cbn [hd tl]. rewrite IH. lia. Qed.

Lemma padded_length n l : length (padded n l) = n.
Proof. unfold padded. rewrite firstn_length, app_length, repeat_length. lia. Qed.

Lemma padded_small n l : small l -> small (padded n l).
Proof.
  intros H. apply Forall_forall. intros x HX. unfold padded in HX. apply (In_nth _ _ 0) in HX. destruct HX as (j & HJ & <-).
  assert (IN : In (nth j (firstn n (l ++ repeat 0 n)) 0) (l ++ repeat 0 n)).
  { rewrite <- (firstn_skipn n (l ++ repeat 0 n)) at 2. apply in_or_app. left. apply nth_In. exact HJ. }
  apply in_app_or in IN. destruct IN as [IN|IN]; [exact (proj1 (Forall_forall _ _) H _ IN)|]. apply repeat_spec in IN. rewrite IN. reflexivity.
Qed.

Lemma firstn_app_any {A} (z : A) n : forall l k, (n <= length l + k)%nat -> firstn n (l ++ repeat z k) = firstn n (l ++ repeat z n).
Proof.
  induction n as [|n IH]; intros l k H; [reflexivity|]. destruct l as [|x l].
  - destruct k as [|k]; [cbn in H; lia|]. cbn [app repeat firstn]. f_equal. exact (IH [] k ltac:(cbn in H |- *; lia)).
  - cbn [app firstn]. f_equal. rewrite (IH l k) by (cbn in H; lia). rewrite (IH l (S n)) by lia. reflexivity.
Qed.

Lemma padded_S n l : padded (S n) l = hd 0 l :: padded n (tl l).
Proof.
  unfold padded. destruct l as [|x l].
  - reflexivity.
  - cbn [app firstn hd tl]. f_equal. apply firstn_app_any. lia.
Qed.

Lemma num_padded n : forall l, num n (padded n l) = num n l.
Proof.
  induction n as [|n IH]; intros l; [reflexivity|]. rewrite padded_S, !num_S. cbn [hd tl]. rewrite IH. reflexivity.
Qed.

Lemma diff_loop_spec a : forall b, length a = length b -> small a -> small b ->
  let n := length a in
  length (fst (diff_loop a b)) = n /\ small (fst (diff_loop a b)) /\
  num n (fst (diff_loop a b)) + num n b = num n a + (if snd (diff_loop a b) then B n else 0).
Proof.
  induction a as [|x a IH]; intros [|y b] L SA SB; cbn [length] in L; try discriminate.
  { cbn. split; [reflexivity|]. split; [constructor|reflexivity]. }
  apply Forall_cons_iff in SA. destruct SA as (XS & SA). apply Forall_cons_iff in SB. destruct SB as (YS & SB). injection L as L.
  destruct (IH b L SA SB) as (I1 & I2 & I3). cbv zeta. cbn [diff_loop length]. destruct (diff_loop a b) as (r, s). cbn [fst snd] in *.
  rewrite !num_S, B_S. cbn [hd tl]. set (P := B (length a)) in *. assert (PP : 0 < P) by apply B_pos.
  destruct s; [destruct (N.ltb_spec y x) as [C|C]|destruct (N.leb_spec y x) as [C|C]];
    cbn [fst snd hd tl length]; (split; [congruence|]; split; [constructor; [lia|assumption]|nia]).
Qed.

Lemma decr_loop_spec v : small v ->
  let n := length v in
  length (fst (decr_loop v)) = n /\ small (fst (decr_loop v)) /\
  num n (fst (decr_loop v)) + 1 = num n v + (if snd (decr_loop v) then B n else 0).
Proof.
  induction v as [|x v IH]; intros SV.
  { cbn. split; [reflexivity|]. split; [constructor|reflexivity]. }
  apply Forall_cons_iff in SV. destruct SV as (XS & SV). destruct (IH SV) as (I1 & I2 & I3). cbv zeta. cbn [decr_loop length].
  destruct (decr_loop v) as (r, s). cbn [fst snd] in *. rewrite !num_S, B_S. cbn [hd tl]. set (P := B (length v)) in *.
  assert (PP : 0 < P) by apply B_pos.
  destruct s; [destruct (N.ltb_spec 0 x) as [C|C]|]; cbn [fst snd hd tl length]; (split; [congruence|]; split; [constructor; [lia|assumption]|nia]).
Qed.

Lemma num_unnum n : forall v, v < B n -> num n (unnum n v) = v.
Proof.
  assert (G : forall n v, num n (unnum n v) = v mod B n).
  { clear. induction n as [|n IH]; intros v; [rewrite B_0, N.mod_1_r; reflexivity|]. rewrite num_S, unnum_S, B_S. cbn [hd tl]. rewrite IH.
    pose proof (B_pos n) as P. rewrite (N.mul_comm 256 (B n)), N.mod_mul_r by lia. lia. }
  intros v H. rewrite G. apply N.mod_small. exact H.
Qed.

Lemma unnum_length n v : length (unnum n v) = n.
Proof. induction n as [|n IH]; cbn [unnum length]; congruence. Qed.
Lemma unnum_small n v : small (unnum n v).
Proof. induction n as [|n IH]; cbn [unnum]; constructor; [apply N.mod_upper_bound; discriminate|exact IH]. Qed.

Lemma num_inj a : forall b, length a = length b -> small a -> small b -> num (length a) a = num (length b) b -> a = b.
Proof.
  induction a as [|x a IH]; intros [|y b] L SA SB E; cbn [length] in *; try discriminate; [reflexivity|].
  apply Forall_cons_iff in SA. destruct SA as (XS & SA). apply Forall_cons_iff in SB. destruct SB as (YS & SB). injection L as L.
  rewrite !num_S in E. cbn [hd tl] in E. pose proof (num_lt (length a) a SA) as H1. pose proof (num_lt (length b) b SB) as H2. rewrite <- L in H2, E.
  assert (XY : x = y) by nia. subst y. f_equal. apply (IH b L SA SB). rewrite <- L. lia.
Qed.

Lemma bin_diff_spec n a b : small a -> small b -> num n b <= num n a -> bin_diff n a b = unnum n (num n a - num n b).
Proof.
  intros SA SB LE. unfold bin_diff.
  pose proof (diff_loop_spec (padded n a) (padded n b)) as D. rewrite !padded_length in D. specialize (D eq_refl (padded_small n a SA) (padded_small n b SB)).
  cbv zeta in D. destruct D as (D1 & D2 & D3). rewrite !num_padded in D3. pose proof (num_lt n _ SA) as LA.
  pose proof (num_lt n _ D2) as LD.
  apply num_inj.
  - rewrite D1, unnum_length. reflexivity.
  - exact D2.
  - apply unnum_small.
  - rewrite D1, unnum_length, num_unnum by lia. destruct (snd _); lia.
Qed.

Lemma bin_decr_spec n v : 0 < v < B n -> bin_decr (unnum n v) = Some (unnum n (v - 1)).
Proof.
  intros V. unfold bin_decr. pose proof (decr_loop_spec (unnum n v) (unnum_small n v)) as D. cbv zeta in D. rewrite unnum_length, num_unnum in D by lia.
  destruct (decr_loop (unnum n v)) as (r, s). cbn [fst snd] in D. destruct D as (D1 & D2 & D3). pose proof (num_lt n _ D2).
  destruct s; [lia|]. f_equal. apply num_inj.
  - rewrite D1, unnum_length. reflexivity.
  - exact D2.
  - apply unnum_small.
  - rewrite D1, unnum_length, num_unnum by lia. lia.
Qed.

Lemma lex_num n : forall a b, small a -> small b -> lex a b = true -> num n a <= num n b.
Proof.
  induction n as [|n IH]; intros a b SA SB H; [reflexivity|]. rewrite !num_S. pose proof (num_lt n _ (small_tl a SA)) as LA.
  destruct a as [|x a], b as [|y b]; cbn [lex hd tl] in *; try discriminate.
  - rewrite num_nil. lia.
  - apply Forall_cons_iff in SA. destruct SA as (XS & SA). apply Forall_cons_iff in SB. destruct SB as (YS & SB).
    apply orb_true_iff in H. destruct H as [H|H].
    + apply N.ltb_lt in H. nia.
    + apply andb_true_iff in H. destruct H as (H1 & H2). apply N.eqb_eq in H1. subst y. specialize (IH a b SA SB H2). lia.
Qed.

Lemma lex_num_lt a : forall b, length a = length b -> small a -> small b -> lex a b = (num (length a) a <? num (length b) b).
Proof.
  intros b L SA SB. destruct (lex a b) eqn:E.
  - symmetry. apply N.ltb_lt. pose proof (lex_num (length a) a b SA SB E) as H. rewrite L in H at 2.
    destruct (N.eq_dec (num (length a) a) (num (length b) b)) as [C|C]; [|lia]. apply num_inj in C; auto. subst b. rewrite lex_irrefl in E. discriminate.
  - symmetry. apply N.ltb_ge. destruct (lex b a) eqn:E2.
    + pose proof (lex_num (length a) b a SB SA E2). rewrite <- L. assumption.
    + rewrite (lex_total _ _ E E2). reflexivity.
Qed.

(* ---------- bkeys ---------- *)

Definition kok (k : bkey) : Prop := match k with U64 _ => True | Bin l => small l end.
Definition like (r k : bkey) : Prop := match r, k with U64 _, U64 _ => True | Bin _, Bin _ => True | _, _ => False end.
Definition room (r : bkey) (v : N) : Prop := match r with U64 _ => True | Bin l => v < B (length l) end.

Lemma room_measure r k : kok k -> like r k -> room r (measure r k).
Proof. destruct r as [x|l], k as [y|m]; cbn; intros H1 H2; try exact I; try contradiction. apply num_lt. exact H1. Qed.

Lemma room_le r v w : v <= w -> room r w -> room r v.
Proof. destruct r as [x|l]; cbn; [auto|]. intros. lia. Qed.

Lemma key_of_kok r v : kok (key_of r v).
Proof. destruct r as [x|l]; cbn; [exact I|]. apply unnum_small. Qed.
Lemma key_of_like r v : like r (key_of r v).
Proof. destruct r; exact I. Qed.

Lemma measure_key_of r v : room r v -> measure r (key_of r v) = v.
Proof. destruct r as [x|l]; cbn; [reflexivity|]. apply num_unnum. Qed.

Lemma measure_mono r a b : kok a -> kok b -> like r a -> like r b -> klt a b = true -> measure r a <= measure r b.
Proof.
  destruct r as [x|l], a as [y|m], b as [z|o]; cbn; intros KA KB LA LB H; try contradiction.
  - apply N.ltb_lt in H. lia.
  - apply lex_num; assumption.
Qed.

Lemma measure_mono' r a b : kok a -> kok b -> like r a -> like r b -> kle a b = true -> measure r a <= measure r b.
Proof.
  intros KA KB LA LB H. destruct (kle_lt_or_eq _ _ H) as [C| ->]; [|reflexivity]. apply measure_mono; assumption.
Qed.

Lemma measure_lt r a b : kok a -> kok b -> like r a -> like r b -> measure r a < measure r b -> klt a b = true.
Proof.
  intros KA KB LA LB H. destruct (klt a b) eqn:E; [reflexivity|]. apply klt_false in E. pose proof (measure_mono' r b a KB KA LB LA E). lia.
Qed.

Lemma b_diff_spec r a b : kok a -> kok b -> like r a -> like r b -> measure r b <= measure r a ->
  b_diff r a b = Some (key_of r (measure r a - measure r b)).
Proof.
  destruct r as [x|l], a as [y|m], b as [z|o]; cbn; intros KA KB LA LB H; try contradiction.
  - rewrite (proj2 (N.leb_le z y)) by exact H. reflexivity.
  - rewrite bin_diff_spec by assumption. reflexivity.
Qed.

Lemma b_decr_spec r v : 0 < v -> room r v -> b_decr (key_of r v) = Some (key_of r (v - 1)).
Proof.
  destruct r as [x|l]; cbn; intros H R.
  - rewrite (proj2 (N.ltb_lt 0 v)) by exact H. reflexivity.
  - rewrite bin_decr_spec by (split; assumption). reflexivity.
Qed.

Lemma b_isgt_key_of r v : kok r -> room r v -> b_isgt (key_of r v) r = (measure r r <? v).
Proof.
  intros K R. rewrite b_isgt_spec. destruct r as [x|l]; cbn in *; [reflexivity|].
  rewrite lex_num_lt; [|symmetry; apply unnum_length|exact K|apply unnum_small]. rewrite unnum_length, num_unnum by exact R. reflexivity.
Qed.
