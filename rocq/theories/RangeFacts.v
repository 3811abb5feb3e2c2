(** Facts about the model of range proofs (ProofDef.v range_loop, range_verify; Tree.v get_range_proof). *)
From Coq Require Import Strings.String.
From Verif Require Import Base Spec SpecRange NodeType ProofDef KeyFacts SmtFacts ProofFacts KeyOrder OrderFacts.
From Coq Require Import Lia.
Local Opaque Spec.smt.

Lemma turns_S b k n : turns b k (S n) = if decide (bit_at k n = b) then n :: turns b k n else turns b k n.
Proof. unfold turns. rewrite seq_S, filter_app, rev_app_distr. cbn [Nat.add]. rewrite filter_cons, filter_nil. case_decide; done. Qed.
Lemma turns_0 b k : turns b k 0 = [].
Proof. done. Qed.
Lemma turns_length k n : length (turns true k n) + length (turns false k n) = n.
Proof. induction n as [|n IH]; [done|]. rewrite !turns_S. destruct (bit_at k n); simpl; lia. Qed.
Lemma turns_lt b k n i : i ∈ turns b k n -> i < n /\ bit_at k i = b.
Proof. unfold turns. rewrite elem_of_list_In, <- in_rev, <- elem_of_list_In, elem_of_list_filter, elem_of_seq. intros [? ?]. split; [lia|done]. Qed.

Section facts.
Context (H : list byte -> bytes32).
Implicit Types M : gmap key vhash.
Notation ms := (ms H).

(** the inputs hashed while checking a range proof, leaf first *)
Fixpoint loop_inputs (bits : list bool) (ls : list hash) (rs : list smnode) (cur : hash) : list (list byte) :=
  match bits with
  | [] => []
  | true :: bits' =>
      match ls with
      | [] => []
      | l :: ls' => internal_input l cur :: loop_inputs bits' ls' rs (internal_hash H l cur)
      end
  | false :: bits' =>
      match rs with
      | [] => []
      | r :: rs' => internal_input cur (sm_hash H r) :: sm_inputs r ++ loop_inputs bits' ls rs' (internal_hash H cur (sm_hash H r))
      end
  end.
Definition range_inputs (lf : leaf_node) (ls : list hash) (p : range_proof) : list (list byte) :=
  leaf_input (ln_key lf) (ln_vh lf) ::
  loop_inputs (rev (take (length ls + length (right_siblings p)) (key_bits (ln_key lf)))) ls (right_siblings p) (leaf_hash H lf).

Definition lsib M k i : hash := sm_hash H (hsib H M k i).

Lemma loop_complete M k n cur : n <= 256 ->
  range_loop H (rev (kpre n k)) (map (lsib M k) (turns true k n)) (map (hsib H M k) (turns false k n)) cur =
  Ok (climb H (kpre n k) (hsibs H M k n) cur).
Proof.
  revert cur. induction n as [|n IH]; intros cur Hn; [done|].
  rewrite hsibs_S, kpre_S by lia. rewrite climb_snoc by (rewrite kpre_length, hsibs_length; lia).
  rewrite rev_app_distr, !turns_S. cbn [rev app]. rewrite <- IH by lia. unfold fold_step, lsib. cbn [fst snd].
  destruct (bit_at k n); reflexivity.
Qed.

Lemma turns_keys M k n : n <= 256 ->
  rev (omap (fun sb : smnode * bool => if negb (snd sb) then Some (fst sb) else None) (zip (hsibs H M k n) (key_bits k))) =
  map (hsib H M k) (turns false k n).
Proof.
  intros Hn. assert (E : zip (hsibs H M k n) (key_bits k) = zip (hsibs H M k n) (kpre n k)).
  { unfold kpre. rewrite <- (take_drop n (key_bits k)) at 1. rewrite <- (app_nil_r (hsibs H M k n)) at 1. rewrite zip_with_app by (rewrite hsibs_length; symmetry; by apply kpre_length). by rewrite app_nil_r. }
  rewrite E. clear E. induction n as [|n IH]; [done|].
  rewrite hsibs_S, kpre_S by lia. rewrite zip_with_app by (rewrite hsibs_length, kpre_length; lia).
  rewrite omap_app, rev_app_distr, IH, turns_S by lia. cbn. destruct (bit_at k n); done.
Qed.

Lemma loop_sound qs M k n ls rs cur : n <= 256 -> length ls + length rs = n ->
  (forall x, x ∈ ms_in H [] M -> x ∈ qs) -> (forall x, x ∈ loop_inputs (rev (kpre n k)) ls rs cur -> x ∈ qs) ->
  range_loop H (rev (kpre n k)) ls rs cur = Ok (ms [] M) ->
  hash_broken H qs \/
  (ls = map (lsib M k) (turns true k n) /\ rs = map (hsib H M k) (turns false k n) /\
   (forall x, x ∈ ms_in H (kpre n k) M -> x ∈ qs) /\
   cur = ms (kpre n k) M /\ forall i, i < n -> 2 <= size (under (kpre i k) M)).
Proof.
  revert ls rs cur. induction n as [|n IH]; intros ls rs cur Hn Hl Q1 Q2 E.
  - destruct ls, rs; try done. cbn in E. apply Ok_inj in E. right. split_and!; [done|done|done|done|intros; lia].
  - rewrite !turns_S. rewrite kpre_S, rev_app_distr in E, Q2 by lia. cbn [rev app] in E, Q2.
    assert (step : forall top, top ∈ qs -> (forall x, x ∈ ms_in H (kpre n k) M -> x ∈ qs) -> H top = ms (kpre n k) M ->
      (exists a b, top = internal_input a b) ->
      hash_broken H qs \/ (2 <= size (under (kpre n k) M) /\ top = internal_input (ms (kpre n k ++ [false]) M) (ms (kpre n k ++ [true]) M))).
    { intros top Qt Q E1 (a & b & Et). destruct (size_cases (under (kpre n k) M)) as [E0|[(k' & h & E0)|Hm]].
      + left. rewrite ms_empty in E1 by done. by eapply hash_ph_or.
      + rewrite (ms_single _ _ _ k' h) in E1 by done.
        assert (leaf_input k' h ∈ qs) as Q' by (apply Q; rewrite (ms_in_single _ _ _ k' h) by done; apply elem_of_list_here).
        destruct (hash_inj_or H qs _ _ Qt Q' E1) as [E2|]; [|by left]. subst top. by apply symmetry, leaf_internal_input_ne in E2.
      + rewrite ms_many in E1 by done. destruct (hash_inj_or H qs _ _ Qt (Q _ (ms_in_internal _ _ _ Hm)) E1) as [E2|]; [|by left]. by right. }
    destruct (bit_at k n) eqn:B; cbn [range_loop loop_inputs] in E, Q2.
    + destruct ls as [|l ls]; [done|]. cbn in Hl.
      destruct (IH ls rs _ ltac:(lia) ltac:(lia) Q1 (fun x Hx => Q2 x (elem_of_list_further _ _ _ Hx)) E) as [|(E1 & E2 & E3 & E4 & E5)]; [by left|].
      destruct (step _ (Q2 _ (elem_of_list_here _ _)) E3 E4) as [|[Hm Et]]; [eauto|by left|]. apply internal_input_inj in Et as [Ea Eb].
      right. rewrite decide_True, decide_False by done. cbn [map]. unfold lsib at 1, hsib. rewrite B. cbn [negb]. rewrite smt_node_hash, kpre_S, B by lia.
      split_and!; [by subst|done| |done|].
      * intros x Hx. apply E3. by eapply ms_in_half.
      * intros i Hi. destruct (decide (i = n)) as [->|]; [done|]. apply E5. lia.
    + destruct rs as [|r rs]; [done|]. cbn in Hl.
      destruct (IH ls rs _ ltac:(lia) ltac:(lia) Q1 (fun x Hx => Q2 x (elem_of_list_further _ _ _ (proj2 (elem_of_app _ _ _) (or_intror Hx)))) E) as [|(E1 & E2 & E3 & E4 & E5)]; [by left|].
      destruct (step _ (Q2 _ (elem_of_list_here _ _)) E3 E4) as [|[Hm Et]]; [eauto|by left|]. apply internal_input_inj in Et as [Ea Eb].
      destruct (sm_hash_inj H qs (kpre n k ++ [true]) M r) as [Er|]; [|by intros x Hx; apply E3; eapply ms_in_half|done| |by left].
      { intros x Hx. apply Q2, elem_of_list_further, elem_of_app. by left. }
      right. rewrite decide_False, decide_True by done. cbn [map]. unfold hsib at 1. rewrite B. cbn [negb]. rewrite kpre_S, B by lia.
      split_and!; [done|by subst| |done|].
      * intros x Hx. apply E3. by eapply ms_in_half.
      * intros i Hi. destruct (decide (i = n)) as [->|]; [done|]. apply E5. lia.
Qed.

(** ** The specification in terms of prefixes *)
Lemma sharing_under (m : gmap key value) k n : n <= 256 -> sharing m k n = under (kpre n k) m.
Proof. intros Hn. unfold sharing, under. apply map_filter_ext. intros k' x _. cbn. by rewrite haspre_kpre. Qed.
Lemma leaving_under (m : gmap key value) k i : i < 256 -> leaving m k i = under (kpre i k ++ [negb (bit_at k i)]) m.
Proof.
  intros Hn. unfold leaving, under. apply map_filter_ext. intros k' x _. cbn.
  rewrite haspre_snoc by (rewrite kpre_length; lia). rewrite kpre_length, haspre_kpre by lia. done.
Qed.
Lemma path_ends_term (m : gmap key value) k n : path_ends m k n <-> term (H <$> m) k n.
Proof.
  unfold path_ends, term. split; intros (A & B & C); (split; [done|]); rewrite sharing_under, under_fmap, map_size_fmap in * by done; (split; [done|]);
    intros i Hi; specialize (C i Hi); rewrite sharing_under, under_fmap, map_size_fmap in * by lia; done.
Qed.
Lemma beside_lsib (m : gmap key value) k i : i < 256 -> beside_hash H m k i = lsib (H <$> m) k i.
Proof.
  intros Hi. unfold beside_hash, lsib, hsib. rewrite smt_node_hash. unfold SmtFacts.ms. rewrite leaving_under, under_fmap, app_length, kpre_length by lia. cbn [length].
  by replace (255 - i) with (256 - (i + 1)) by lia.
Qed.
Lemma left_hashes_lsib (m : gmap key value) k n : n <= 256 -> left_hashes H m k n = map (lsib (H <$> m) k) (turns true k n).
Proof. intros Hn. unfold left_hashes. apply map_ext_in. intros i Hi%elem_of_list_In. apply turns_lt in Hi as [? _]. apply beside_lsib. lia. Qed.
Lemma right_hashes_hsib (m : gmap key value) k n : n <= 256 -> right_hashes H m k n = map (sm_hash H) (map (hsib H (H <$> m) k) (turns false k n)).
Proof. intros Hn. unfold right_hashes. rewrite map_map. apply map_ext_in. intros i Hi%elem_of_list_In. apply turns_lt in Hi as [? _]. apply beside_lsib. lia. Qed.
End facts.
