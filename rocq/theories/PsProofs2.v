From Coq Require Import String Ascii.
From Verif Require Import Base UtilModel UtilProofs ArgTypes PsModel PsSpec PsProofs.
From Verif Require AtProofs3.
From Coq Require Import List ZArith NArith Lia Bool Permutation.
Local Open Scope nat_scope.
Local Open Scope list_scope.
(* ---------- the text ---------- *)
Fixpoint fields (l : list (bytes * ctr)) : bytes :=
  match l with
  | [] => [13%N; 10%N]
  | (w, _) :: r => 32%N :: w ++ [32; 37; 108; 108; 117]%N ++ fields r
  end.
Lemma render_lit name l w r : forallb (fun x => negb (N.eqb x 37)) w = true -> render (w ++ r) name l = w ++ render r name l.
Proof. induction w as [|x w IH]; intro H; [reflexivity|]. cbn [forallb] in H. apply andb_prop in H. destruct H as [H K]. cbn [app render]. rewrite H, IH by exact K. reflexivity. Qed.
Lemma render_line name (v : ctr -> N) : render format name (map v args) = txt "PREFIX " ++ name ++ pairs v letters.
Proof.
  assert (F : format = txt "PREFIX %s" ++ fields letters) by (vm_compute; reflexivity).
  assert (A : args = map snd letters) by (vm_compute; reflexivity).
  assert (G : Forall (fun w => forallb (fun x => negb (N.eqb x 37)) (fst w) = true) letters) by (unfold letters; repeat (constructor; [reflexivity|]); constructor).
  rewrite F, A, map_map. generalize letters G. clear F A G. intros l G.
  change (txt "PREFIX %s") with (txt "PREFIX " ++ [37%N; 115%N]). rewrite <- app_assoc, render_lit by reflexivity.
  f_equal. cbn [render app]. change (N.eqb 37 37) with true. change (N.eqb 115 115) with true. cbn [negb]. f_equal.
  induction G as [|[w k] l W G IH]; [reflexivity|]. cbn [fields pairs map]. cbn [render]. change (N.eqb 32 37) with false. cbn [negb]. f_equal.
  cbn [fst] in W. rewrite render_lit by exact W. f_equal. cbn [app snd]. cbn [render]. change (N.eqb 32 37) with false. change (N.eqb 37 37) with true.
  change (N.eqb 108 115) with false. cbn [negb]. f_equal. f_equal. exact IH.
Qed.
Lemma pairs_length v l : (forall k, (v k < two64)%N) -> Forall (fun w => List.length (fst w) = 3) l ->
  List.length (pairs v l) <= 25 * List.length l + 2.
Proof.
  intros B F. induction F as [|[w k] l W F IH]; [cbn; lia|]. cbn [pairs List.length]. rewrite app_length. cbn [List.length]. rewrite app_length.
  pose proof (AtProofs3.dec_text_short (v k) (B k)). cbn [fst] in W. lia.
Qed.
Definition shown_name (p : bytes) : bytes := match p with [] => null_str | _ => p end.
Lemma line_ok e : write_entry e = stat_line (e_cnt e) (e_name e).
Proof. unfold write_entry, stat_line. rewrite render_line. destruct (e_name e); reflexivity. Qed.
Lemma line_length v p : (forall k, (v k < two64)%N) -> (Z.of_nat (List.length (stat_line v p)) <= name_size p + 1359)%Z.
Proof.
  intro B. unfold stat_line. rewrite !app_length. pose proof (pairs_length v letters B) as P.
  change (List.length letters) with 54 in P. change (List.length (txt "PREFIX ")) with 7.
  assert (Q : List.length (pairs v letters) <= 25 * 54 + 2) by (apply P; unfold letters; repeat (constructor; [reflexivity|]); constructor).
  unfold name_size. destruct p; change (txt "<null>") with null_str; lia.
Qed.
Lemma format_length : Z.of_nat (List.length format) = 497%Z.
Proof. reflexivity. Qed.
Definition lines_length (l : list entry) : Z := fold_right (fun e n => Z.of_nat (List.length (write_entry e)) + n)%Z 0%Z l.
Lemma write_all_cons size pos e r : write_all size pos (e :: r) =
  if Z.ltb (pos + Z.of_nat (List.length (write_entry e))) size
  then match write_all size (pos + Z.of_nat (List.length (write_entry e))) r with Some u => Some (write_entry e ++ u) | None => None end
  else None.
Proof. reflexivity. Qed.
Lemma lines_cons e r : lines_length (e :: r) = (Z.of_nat (List.length (write_entry e)) + lines_length r)%Z.
Proof. reflexivity. Qed.
Lemma lines_pos l : (0 <= lines_length l)%Z.
Proof. induction l as [|e l IH]; [cbn; lia|]. rewrite lines_cons. lia. Qed.
Lemma write_all_ok size l : forall pos, (pos + lines_length l + 5 < size)%Z ->
  write_all size pos l = Some (List.concat (map write_entry l) ++ the_end).
Proof.
  induction l as [|e l IH]; intros pos H.
  - change (write_all size pos []) with (if Z.ltb (pos + 5) size then Some the_end else None). change (lines_length []) with 0%Z in H.
    rewrite (proj2 (Z.ltb_lt _ _)) by lia. reflexivity.
  - rewrite write_all_cons. rewrite lines_cons in H. pose proof (lines_pos l).
    rewrite (proj2 (Z.ltb_lt _ _)) by lia. rewrite IH by lia. rewrite map_cons. unfold List.concat; fold (List.concat (map write_entry l)).
    now rewrite <- app_assoc.
Qed.
Section Hash.
Variable delim : N.
Variable hash : bytes -> N.
Notation slot := (slot hash).
Notation pre := (pre delim).
Definition small (s : state) : Prop := forall i e k, In e (tab s i) -> (e_cnt e k < two64)%N.
Lemma bump_small o hit c : (forall k, (c k < two64)%N) -> forall k, (bump o hit c k < two64)%N.
Proof. intros B k. rewrite bump_counts. destruct (counts k o hit); [|apply B]. apply N.mod_lt. discriminate. Qed.
Lemma count_small s p o hit : small s -> small (count_at hash s p o hit).
Proof.
  intros B i e k. cbn [count_at tab]. unfold set_chain. destruct (Nat.eqb_spec i (slot p)) as [->|]; [|apply B].
  pose proof (B (slot p)) as C. revert C. induction (tab s (slot p)) as [|x c IH]; cbn [bump_in]; intros C I; [destruct I|].
  destruct (beqb (e_name x) p).
  - destruct I as [<-|I]; [|apply C; now right]. cbn [e_cnt]. apply bump_small. intro q. apply C. now left.
  - destruct I as [<-|I]; [apply C; now left|]. apply IH; auto. intros y q Y. apply C. now right.
Qed.
Lemma added_small s p : small s -> small (added hash s p).
Proof.
  intros B i e k. cbn [added tab]. unfold set_chain. destruct (Nat.eqb_spec i (slot p)) as [->|]; [|apply B].
  intros [<-|I]; [reflexivity|exact (B _ _ k I)].
Qed.
Lemma step_small s e : inv hash s -> small s -> small (step delim hash s e).
Proof.
  intros V B. destruct e as [o hit key|t|b|]; cbn [step].
  - destruct (detail s); [|exact B]. unfold record. cbv zeta. fold (pre key).
    destruct (lookup (tab s (slot (pre key))) (pre key)) eqn:E; [now apply count_small|].
    apply (find_name hash s _ V) in E.
    destruct (insert_cases hash s key (prefix_len delim key) V E) as [[-> _]|[(-> & _ & _)|[[-> _]|[-> _]]]].
    + exact B. + exact B. + exact (added_small s _ B). + apply count_small. now apply added_small.
  - destruct (detail s); [|exact B]. unfold delete. destruct (lookup _ _) as [x|] eqn:E; [|exact B].
    intros i y k. cbn [tab]. unfold set_chain. destruct (Nat.eqb_spec i (slot (if beqb t null_str then [] else t))) as [->|]; [|apply B].
    intro I. eapply B. apply (Permutation_in _ (Permutation_sym (unlink_perm _ _ _ E))). right. exact I.
  - exact B.
  - intros i e k [].
Qed.
Lemma run_small h : forall s, inv hash s -> small s -> small (run delim hash s h).
Proof. induction h as [|e h IH]; intros s V B; [exact B|]. cbn. apply IH; [now apply step_inv|now apply step_small]. Qed.

Lemma dump_all_ok s : inv hash s -> small s ->
  dump_all s = Some (List.concat (map (fun e => stat_line (e_cnt e) (e_name e)) (all_entries s)) ++ the_end).
Proof.
  intros V B. unfold dump_all. rewrite write_all_ok.
  - rewrite (map_ext _ (fun e => stat_line (e_cnt e) (e_name e)) line_ok). reflexivity.
  - unfold buf_size. rewrite format_length, (i_num _ _ V), (i_total _ _ V). unfold names. rewrite map_length.
    assert (Q : forall l, (forall e k, In e l -> (e_cnt e k < two64)%N) ->
      (lines_length l <= nsize (map e_name l) + Z.of_nat (List.length l) * 1359)%Z).
    { induction l as [|e l IH]; intro C; [cbn; lia|]. unfold nsize in *. cbn [fold_right map List.length] in *. rewrite lines_cons, line_ok.
      pose proof (line_length (e_cnt e) (e_name e) (fun k => C e k (or_introl eq_refl))).
      specialize (IH (fun x k I => C x k (or_intror I))). lia. }
    specialize (Q (all_entries s)). assert (C : forall e k, In e (all_entries s) -> (e_cnt e k < two64)%N).
    { intros e k I. apply in_flat_map in I. destruct I as (i & _ & I). exact (B _ _ k I). }
    specialize (Q C). lia.
Qed.
Lemma pick_cases s t : pick hash s t = [] \/
  exists e, pick hash s t = [e] /\ In e (tab s (slot (if beqb t null_str then [] else t))) /\ e_name e = (if beqb t null_str then [] else t).
Proof.
  unfold pick. cbv zeta. destruct (lookup _ _) as [e|] eqn:E; [|now left]. right. exists e. apply lookup_in in E. tauto.
Qed.
Lemma dump_some_ok s tokens : inv hash s -> small s -> Forall (fun t => t <> []) tokens ->
  dump_some hash s tokens = Some (List.concat (map (fun e => stat_line (e_cnt e) (e_name e)) (flat_map (pick hash s) tokens)) ++ the_end).
Proof.
  intros V B NE. unfold dump_some. rewrite write_all_ok.
  - rewrite (map_ext _ (fun e => stat_line (e_cnt e) (e_name e)) line_ok). reflexivity.
  - unfold buf_size. rewrite format_length.
    assert (Q : (lines_length (flat_map (pick hash s) tokens) <=
       fold_right (fun t n => Z.of_nat (List.length t) + n) 0 tokens + Z.of_nat (List.length tokens) * 1359)%Z); [|rewrite Z.add_0_l; change (497 - 2 + 54 * (20 - 4))%Z with 1359%Z; set (u := fold_right _ 0%Z tokens) in *; set (w := lines_length _) in *; clearbody u w; unfold bytes in *; lia].
    induction NE as [|t tokens T NE IH]; [cbn; lia|]. cbn [flat_map fold_right List.length].
    destruct (pick_cases s t) as [->|(e & -> & I & N)]; cbn [app]; [lia|]. rewrite lines_cons, line_ok.
    pose proof (line_length (e_cnt e) (e_name e) (fun k => B _ e k I)) as Ln.
    assert (NS : (name_size (e_name e) <= Z.of_nat (List.length t))%Z).
    { rewrite N. destruct (beqb_spec t null_str) as [->|]; [unfold name_size; lia|]. unfold name_size. destruct t; [now destruct T|lia]. }
    lia.
Qed.
End Hash.
