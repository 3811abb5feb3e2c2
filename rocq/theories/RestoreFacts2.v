(** Pushing the keys of a chunk, the values, and flushing (Restore.v). *)
From Coq Require Import Strings.String.
From Verif Require Import Base Spec NodeType ProofDef TreeCache Mock Restore KeyFacts SmtFacts ProofFacts NodeFacts Canon CanonSib PutFacts KeyOrder OrderFacts ThmNode ValueFacts RestoreFacts.
From Coq Require Import Lia.
Local Opaque Spec.smt.

Global Arguments ri_version {H v g rs S q ex} _.
Global Arguments ri_len {H v g rs S q ex} _.
Global Arguments ri_chain {H v g rs S q ex} _.
Global Arguments ri_rmost {H v g rs S q ex} _.
Global Arguments ri_disj {H v g rs S q ex} _.
Global Arguments ri_nodes {H v g rs S q ex} _.

Section facts.
Context (H : list byte -> bytes32) (v : version).
Implicit Types (X Y W : gmap key value) (q : list nibble).

(** the values received since the last flush, and those stored *)
Definition fvals W : gmap (version * key) (option value) := kmap (pair v) (Some <$> W).
Definition hist1 Y : gmap key (list (version * option value)) := (fun x => [(v, Some x)]) <$> Y.
Lemma fvals_insert W k x : <[ (v, k) := Some x ]> (fvals W) = fvals (<[ k := x ]> W).
Proof. unfold fvals. rewrite fmap_insert. by rewrite (kmap_insert (pair v)). Qed.
Lemma put_hist1 Y k x : put_value_hist (hist1 Y) v k (Some x) = Ok (hist1 (<[ k := x ]> Y)).
Proof.
  unfold put_value_hist, hist1. rewrite lookup_fmap, fmap_insert. destruct (Y !! k) as [y|]; [|done]. cbn. by rewrite N.compare_refl.
Qed.
Definition ins Y (e : key * value) := <[ e.1 := e.2 ]> Y.
Lemma write_hist1 l : forall Y, write_values (hist1 Y) ((fun e => ((v, e.1), Some e.2)) <$> l) = Ok (hist1 (fold_left ins l Y)).
Proof.
  induction l as [|[k x] l IH]; intros Y; [done|]. cbn [fmap list_fmap write_values fst snd]. rewrite put_hist1, bind_Ok. apply IH.
Qed.
Lemma fold_ins_lookup l k : forall Y, NoDup l.*1 -> fold_left ins l Y !! k = match (list_to_map l : gmap key value) !! k with Some x => Some x | None => Y !! k end.
Proof.
  induction l as [|[k' x] l IH]; intros Y ND; [done|]. rewrite fmap_cons in ND. apply NoDup_cons in ND as [Nn ND]. cbn [fold_left list_to_map fst snd]. rewrite IH by done.
  cbn. destruct (decide (k' = k)) as [->|Ne].
  - rewrite lookup_insert. rewrite not_elem_of_list_to_map_1 by done. unfold ins. cbn. by rewrite lookup_insert.
  - rewrite lookup_insert_ne by done. unfold ins. cbn. by rewrite lookup_insert_ne.
Qed.
Lemma write_fvals W Y : write_values (hist1 Y) (sorted_values (fvals W)) = Ok (hist1 (W ∪ Y)).
Proof.
  assert (P : sorted_values (fvals W) ≡ₚ (fun e : key * value => ((v, e.1), Some e.2)) <$> map_to_list W).
  { apply NoDup_Permutation.
    - rewrite sorted_values_perm. apply NoDup_map_to_list.
    - apply NoDup_fmap_2; [|apply NoDup_map_to_list]. intros [? ?] [? ?] [= -> ->]. done.
    - intros [[w k] x]. rewrite elem_of_sorted_values, elem_of_list_fmap. unfold fvals. rewrite (lookup_kmap_Some (pair v)). split.
      + intros (k' & [= -> ->] & E). rewrite lookup_fmap in E. destruct (W !! k') as [y|] eqn:Ey; [|done]. injection E as <-. exists (k', y). split; [done|]. by apply elem_of_map_to_list.
      + intros ([k' y] & [= -> -> ->] & E). apply elem_of_map_to_list in E. exists k'. split; [done|]. by rewrite lookup_fmap, E. }
  apply Permutation_map_inv in P as (l & -> & P). change (map ?f l) with (f <$> l). rewrite write_hist1. do 2 f_equal.
  assert (ND : NoDup l.*1) by (rewrite <- P; apply NoDup_fst_map_to_list).
  assert (E : W = list_to_map l) by (rewrite <- (list_to_map_to_list W) at 1; apply list_to_map_proper; [apply NoDup_fst_map_to_list|done]).
  apply map_eq. intros k. rewrite fold_ins_lookup by done. rewrite lookup_union, <- E. destruct (W !! k), (Y !! k); done.
Qed.

(** the state after at least one key *)
Record live g rs X k : Prop := Live {
  lv_path : exists q c, RI H v g rs (H <$> X) q (Some (q ++ [c])) /\
     (exists h, U (q ++ [c]) (H <$> X) = {[ k := h ]}) /\ (q <> [] -> 2 <= size (U q (H <$> X)));
  lv_prev : exists x, X !! k = Some x /\ rs_prev rs = Some (LeafNode k (H x));
  lv_max : forall k' x', X !! k' = Some x' -> key_le k' k;
  lv_num : 0 < rs_num rs }.
Definition vals rs W Y : Prop := rs_fvalues rs = fvals W /\ st_history (rs_store rs) = hist1 Y.

Definition idle g rs X q : Prop :=
  RI H v g rs (H <$> X) q None /\ (q <> [] -> U q (H <$> X) <> ∅) /\ rs_num rs = 0 /\
  match rs_prev rs with
  | None => X = ∅
  | Some l => is_Some (X !! ln_key l) /\ forall k' x', X !! k' = Some x' -> key_le k' (ln_key l)
  end.
Lemma RI_same g rs rs' S q ex : rs_version rs' = rs_version rs -> rs_partial rs' = rs_partial rs -> rs_fnodes rs' = rs_fnodes rs -> rs_store rs' = rs_store rs ->
  RI H v g rs S q ex -> RI H v g rs' S q ex.
Proof.
  intros E1 E2 E3 E4 I. split; [rewrite E1; apply (ri_version I)|apply (ri_len I)|rewrite E2; apply (ri_chain I)|apply (ri_rmost I)|rewrite E3, E4; apply (ri_disj I)|].
  unfold all_nodes. rewrite E3, E4. apply (ri_nodes I).
Qed.
Lemma live_right g rs X k q c h : RI H v g rs (H <$> X) q (Some (q ++ [c])) -> U (q ++ [c]) (H <$> X) = {[ k := h ]} ->
  (forall k' x', X !! k' = Some x' -> key_le k' k) -> forall n, (nib_to_N c < nib_to_N n)%N -> U (q ++ [n]) (H <$> X) = ∅.
Proof.
  intros I Eu M n Ln. apply map_eq. intros x. rewrite lookup_empty. destruct (U (q ++ [n]) (H <$> X) !! x) as [y|] eqn:E; [|done].
  apply U_lookup in E as [E P]. rewrite lookup_fmap in E. destruct (X !! x) as [z|] eqn:Ex; [|done]. specialize (M _ _ Ex).
  assert (Ek : U (q ++ [c]) (H <$> X) !! k = Some h) by (rewrite Eu; apply lookup_singleton). apply U_lookup in Ek as [_ Pk].
  assert (Lt : key_lt k x) by (by eapply key_lt_nib). destruct M as [->|M]; [|exfalso; eapply key_lt_irrefl, key_lt_trans; done].
  by apply key_lt_irrefl in Lt.
Qed.
Lemma le_lt_before X k k2 : (forall k' x', X !! k' = Some x' -> key_le k' k) -> key_lt k k2 -> before (H <$> X) k2.
Proof.
  intros M L k' h E. rewrite lookup_fmap in E. destruct (X !! k') as [z|] eqn:Ex; [|done]. destruct (M _ _ Ex) as [->|]; [done|]. by eapply key_lt_trans.
Qed.
(** one key pushed *)
Definition pushed g rs X W Y k x o : Prop := exists rs', o = Ok rs' /\ live g rs' (<[ k := x ]> X) k /\ vals rs' (<[ k := x ]> W) Y /\
  rs_store rs' = rs_store rs /\ rs_root rs' = rs_root rs.
Lemma added_pushed g rs X W Y k x : vals rs W Y -> before (H <$> X) k ->
  let rs0 := RS (rs_store rs) (rs_version rs) (rs_partial rs) (rs_fnodes rs) (<[ (rs_version rs, k) := Some x ]> (rs_fvalues rs)) (rs_prev rs) (rs_num rs) (rs_root rs) in
  rs_version rs = v -> added H v g rs0 (H <$> X) k (H x) (add_one H rs0 k (H x)) -> pushed g rs X W Y k x (push_key H rs k x).
Proof.
  intros [V1 V2] B rs0 Ev (rs' & q' & c' & E & I & Eu & Two & R). unfold push_key, value_hash. fold rs0. rewrite E, bind_Ok. eexists. split; [done|].
  destruct R as (R1 & R2 & R3 & R4 & R5 & R6). rewrite <- fmap_insert in I, Eu, Two.
  split; [|split; [|done]].
  - split; cbn.
    + exists q', c'. split; [by eapply RI_same; [..|exact I]|]. eauto.
    + exists x. by rewrite lookup_insert.
    + intros k' x' E'. apply lookup_insert_Some in E' as [[<- _]|[_ E']]; [by left|right]. eapply B. by rewrite lookup_fmap, E'.
    + lia.
  - split; cbn; [|by rewrite R1]. rewrite R3. cbn. by rewrite Ev, V1, fvals_insert.
Qed.
Lemma push_live g rs X W Y k k2 x : live g rs X k -> vals rs W Y -> key_lt k k2 -> pushed g rs X W Y k2 x (push_key H rs k2 x).
Proof.
  intros [(q & c & I & (h & Eu) & Two) _ M Num] V Lt. pose proof (le_lt_before _ _ _ M Lt) as B. apply added_pushed; [done|done|apply (ri_version I)|].
  match goal with |- added _ _ _ ?r _ _ _ _ => set (rs0 := r) end. assert (I0 : RI H v g rs0 (H <$> X) q (Some (q ++ [c]))) by (by eapply RI_same; [..|exact I]).
  pose proof (live_right _ _ _ _ _ _ _ I Eu M) as Rm.
  assert (Lf : leafy rs0 (H <$> X) q (Some (q ++ [c]))) by (left; split; [done|]; by exists c, k, h).
  assert (Ek : U (q ++ [c]) (H <$> X) !! k = Some h) by (rewrite Eu; apply lookup_singleton). apply U_lookup in Ek as [Ek Pk].
  assert (Uq : U q (H <$> X) <> ∅) by (apply (U_app_ne _ [c]); rewrite Eu; apply single_ne).
  destruct (decide (q `prefix_of` key_nibbles k2)) as [Pq|Nq].
  - destruct (prefix_next q k2 Pq (ri_len I)) as [n Pn]. destruct (N.lt_trichotomy (nib_to_N c) (nib_to_N n)) as [Ln|[->%nib_to_N_inj|Ln]].
    + eapply add_here; eauto.
    + eapply add_split; eauto.
    + exfalso. eapply key_lt_irrefl, key_lt_trans; [exact Lt|]. by eapply key_lt_nib.
  - set (j := lcp q (key_nibbles k2)). assert (Lj : j < length q).
    { pose proof (lcp_le_l q (key_nibbles k2)). fold j in H0. destruct (decide (j = length q)) as [E|]; [|lia]. by apply lcp_full in E. }
    eapply (add_up H v g rs0 _ q _ k2 (H x) j I0 Lf B Lj); [apply lcp_take| |apply Two; by destruct q; cbn in Lj; lia || done].
    destruct (lookup_lt_is_Some_2 q j Lj) as [a Ea]. rewrite Ea. intros E. symmetry in E. by apply (lcp_lookup_ne q (key_nibbles k2) a a).
Qed.
Lemma push_idle g rs X W Y q n k2 x : idle g rs X q -> vals rs W Y -> before (H <$> X) k2 -> (q ++ [n]) `prefix_of` key_nibbles k2 -> U (q ++ [n]) (H <$> X) = ∅ ->
  pushed g rs X W Y k2 x (push_key H rs k2 x).
Proof.
  intros (I & Ne & Num & _) V B Pn Eu. apply added_pushed; [done|done|apply (ri_version I)|].
  match goal with |- added _ _ _ ?r _ _ _ _ => set (rs0 := r) end. assert (I0 : RI H v g rs0 (H <$> X) q None) by (by eapply RI_same; [..|exact I]).
  eapply add_here; eauto. by right.
Qed.

Lemma live_weak g rs X k : live g rs X k -> live False rs X k.
Proof. intros [(q & c & I & E & T) P M N]. split; [|done..]. exists q, c. split; [|done]. by eapply RI_chain_only. Qed.
Lemma pushed_weak g rs X W Y k x o : pushed g rs X W Y k x o -> pushed False rs X W Y k x o.
Proof. intros (rs' & ? & L & ?). exists rs'. split; [done|]. split; [by eapply live_weak|done]. Qed.
(** any key pushed to a recovered state *)
Lemma push_idle_any g rs X W Y q k2 x rs' : idle g rs X q -> vals rs W Y -> before (H <$> X) k2 -> push_key H rs k2 x = Ok rs' ->
  pushed False rs X W Y k2 x (push_key H rs k2 x).
Proof.
  intros Id V B Ok. pose proof Id as (I & Ne & Num & _).
  destruct (decide (q `prefix_of` key_nibbles k2)) as [Pq|Nq].
  - destruct (prefix_next q k2 Pq (ri_len I)) as [n Pn]. destruct (size_cases (U (q ++ [n]) (H <$> X))) as [Eu|[(k & h & Eu)|Eu]].
    + eapply pushed_weak, push_idle; eauto.
    + apply added_pushed; [done|done|apply (ri_version I)|].
      match goal with |- added _ _ _ ?r _ _ _ _ => set (rs0 := r) end.
      assert (I0 : RI H v False rs0 (H <$> X) q (Some (q ++ [n]))) by (eapply RI_same; [..|eapply RI_chain_only, I]; done).
      eapply add_split; eauto. intros m Lm. apply map_eq. intros z. rewrite lookup_empty. destruct (U (q ++ [m]) (H <$> X) !! z) as [y|] eqn:E; [|done].
      apply U_lookup in E as [E P]. exfalso. apply (key_lt_irrefl z). eapply key_lt_trans; [by eapply B|]. by eapply key_lt_nib.
    + exfalso. unfold push_key in Ok. match type of Ok with context [add_one _ ?r _ _] => set (rs0 := r) in Ok end.
      assert (I0 : RI H v g rs0 (H <$> X) q None) by (by eapply RI_same; [..|exact I]).
      unfold add_one in Ok. rewrite (walk_ok H v g rs0 (H <$> X) q None k2 _ (length q) I0 ltac:(lia)) in Ok by (rewrite take_ge by lia; by apply pre_take).
      assert (En : key_nibbles k2 !! length q = Some n). { destruct Pn as [z ->]. rewrite <- app_assoc, lookup_app_r, Nat.sub_diag by lia. done. }
      erewrite (drop_S (key_nibbles k2)) in Ok by exact En. cbn [add_loop] in Ok. rewrite take_ge in Ok by lia.
      destruct (ri_bottom _ _ _ _ _ _ _ I0) as (i & Ei & _ & _ & C & _). rewrite Ei in Ok. cbn [unwrap] in Ok. rewrite bind_Ok, C, cinfo_many in Ok by done.
      pose proof (U_many_len _ _ Eu) as Lq. rewrite app_length in Lq. cbn in Lq.
      destruct (drop (Datatypes.S (length q)) (key_nibbles k2)) as [|a r] eqn:Ed. { apply (f_equal length) in Ed. rewrite drop_length, key_nibbles_length in Ed. cbn in Ed. lia. }
      cbn [add_loop] in Ok. rewrite app_length in Ok. cbn [length] in Ok. rewrite lookup_ge_None_2 in Ok by (rewrite (proj1 (ri_chain I0)); lia). done.
  - set (j := lcp q (key_nibbles k2)). assert (Lj : j < length q).
    { pose proof (lcp_le_l q (key_nibbles k2)). fold j in H0. destruct (decide (j = length q)) as [E|]; [|lia]. by apply lcp_full in E. }
    assert (Nj : q !! j <> key_nibbles k2 !! j).
    { destruct (lookup_lt_is_Some_2 q j Lj) as [a Ea]. rewrite Ea. intros E. symmetry in E. by apply (lcp_lookup_ne q (key_nibbles k2) a a). }
    assert (Nn : q <> []) by (intros ->; cbn in Lj; lia). specialize (Ne Nn).
    destruct (size_cases (U q (H <$> X))) as [Eu|[(k & h & Eu)|Eu]]; [done| |].
    + exfalso. unfold push_key in Ok. match type of Ok with context [add_one _ ?r _ _] => set (rs0 := r) in Ok end.
      assert (I0 : RI H v g rs0 (H <$> X) q None) by (by eapply RI_same; [..|exact I]).
      destruct (add_up_eq H v g rs0 _ q None k2 (value_hash H x) j I0 B Lj (lcp_take _ _) Nj Ne) as (n & _ & _ & E). rewrite E in Ok. unfold rfreeze in Ok.
      unfold freeze_previous_leaf in Ok. change (rs_num rs0) with (rs_num rs) in Ok. rewrite Num in Ok. cbn [Nat.eqb] in Ok. rewrite bind_Ok in Ok.
      unfold freeze_internal_nodes in Ok. rewrite (proj1 (ri_chain I0)) in Ok. replace (Datatypes.S (length q) - (j + 1)) with (Datatypes.S (length q - j - 1)) in Ok by lia.
      destruct (freeze_internal H (Datatypes.S (length q - j - 1)) rs0) as [rs1| |] eqn:F; [|done|done]. by eapply freeze_single in F.
    + eapply pushed_weak. apply added_pushed; [done|done|apply (ri_version I)|].
      match goal with |- added _ _ _ ?r _ _ _ _ => set (rs0 := r) end. assert (I0 : RI H v g rs0 (H <$> X) q None) by (by eapply RI_same; [..|exact I]).
      eapply (add_up H v g rs0 _ q _ k2 (H x) j I0); [by right|done|done|apply lcp_take|done|done].
Qed.

(** the rest of a chunk *)
Lemma push_chunk_live g chunk : forall rs X W Y k, live g rs X k -> vals rs W Y ->
  StronglySorted elt chunk -> (forall e, e ∈ chunk -> key_lt k e.1) -> 
  exists rs' k', push_chunk H rs chunk = Ok (rs', None) /\ live g rs' (fold_left ins chunk X) k' /\ vals rs' (fold_left ins chunk W) Y /\
    rs_store rs' = rs_store rs /\ rs_root rs' = rs_root rs.
Proof.
  induction chunk as [|[k2 x] chunk IH]; intros rs X W Y k L V So Lt.
  - by exists rs, k.
  - apply StronglySorted_inv in So as [So F]. assert (Lk : key_lt k k2) by (apply (Lt (k2, x)); by left).
    cbn [push_chunk]. unfold in_order. destruct (lv_prev _ _ _ _ L) as (y & _ & ->). cbn [ln_key]. rewrite (proj2 (key_ltb_lt _ _) Lk).
    destruct (push_live g rs X W Y k k2 x L V Lk) as (rs1 & -> & L1 & V1 & S1 & R1). rewrite bind_Ok.
    destruct (IH rs1 _ _ _ _ L1 V1 So) as (rs2 & k' & E & L2 & V2 & S2 & R2).
    { intros e He. rewrite Forall_forall in F. apply (F e). first [done|by apply elem_of_list_In]. }
    exists rs2, k'. split; [done|]. split; [done|]. split; [done|]. split; congruence.
Qed.
End facts.
