(** Properties of the proof verifiers: soundness against adversarial proofs, uniqueness,
    root binding, update proofs, panics.  (C08, C09, C10, C15, C16, C17, C18, C50) *)
From Coq Require Import Strings.String.
From Verif Require Import Base Spec NodeType ProofDef KeyFacts SmtFacts ProofFacts.
From Coq Require Import Lia.

Lemma ms_in_root H (m : gmap key value) x : x ∈ ms_in H [] (H <$> m) -> x ∈ root_inputs H m.
Proof. unfold ms_in, root_inputs. rewrite under_nil. intros Hx. apply elem_of_app. by left. Qed.
Lemma value_in_root H (m : gmap key value) k x : m !! k = Some x -> x ∈ root_inputs H m.
Proof.
  intros Hx. unfold root_inputs. apply elem_of_app. right.
  apply elem_of_list_fmap. exists (k, x). split; [done|]. by apply elem_of_map_to_list.
Qed.

Local Opaque root_inputs proof_inputs ms_in Spec.smt_root Spec.smt SmtFacts.ms.
Ltac inq := first [assumption | apply elem_of_list_here
  | apply elem_of_app; first [left; solve [inq] | right; solve [inq]] | apply elem_of_list_further; solve [inq]].

Section thm.
Context (H : list byte -> bytes32).
Notation smt_root := (smt_root H).

(** C08 *)
Theorem C08_existence_soundness (m : gmap key value) (p : sm_proof) (k : key) (x : value) :
  verify_existence H p (smt_root m) k x = Ok tt ->
  m !! k = Some x \/ hash_broken H (x :: root_inputs H m ++ proof_inputs H k p).
Proof.
  unfold verify_existence. rewrite <- ms_nil. intros V.
  set (qs := x :: root_inputs H m ++ proof_inputs H k p).
  assert (Q1 : forall y, y ∈ root_inputs H m -> y ∈ qs) by (intros; unfold qs; inq).
  destruct (verify_sound H qs (H <$> m) k p (Some x)) as [|(_ & _ & E)]; [| |done|by right|].
  { intros y Hy. by apply Q1, ms_in_root. } { intros y Hy. unfold qs. inq. }
  rewrite lookup_fmap in E. simpl in E. apply fmap_Some in E as (y & Ey & E).
  destruct (decide (x = y)) as [->|Hne]; [by left|]. right. left. exists x, y.
  split; [apply elem_of_list_here|]. split; [by eapply Q1, value_in_root|]. done.
Qed.
(** C09 *)
Theorem C09_nonexistence_soundness (m : gmap key value) (p : sm_proof) (k : key) :
  verify_nonexistence H p (smt_root m) k = Ok tt ->
  m !! k = None \/ hash_broken H (root_inputs H m ++ proof_inputs H k p).
Proof.
  unfold verify_nonexistence. rewrite <- ms_nil. intros V.
  set (qs := root_inputs H m ++ proof_inputs H k p).
  destruct (verify_sound H qs (H <$> m) k p None) as [|(_ & _ & E)]; [| |done|by right|].
  { intros y Hy%ms_in_root. unfold qs. inq. } { intros y Hy. unfold qs. inq. }
  left. rewrite lookup_fmap in E. by destruct (m !! k).
Qed.
(** C50 *)
Theorem C50_proofs_unique (m : gmap key value) (k : key) (p1 p2 : sm_proof) (v1 v2 : option value) :
  verify H p1 (smt_root m) k v1 = Ok tt -> verify H p2 (smt_root m) k v2 = Ok tt ->
  p1 = p2 \/ hash_broken H (root_inputs H m ++ proof_inputs H k p1 ++ proof_inputs H k p2).
Proof.
  rewrite <- ms_nil. intros V1 V2.
  set (qs := root_inputs H m ++ proof_inputs H k p1 ++ proof_inputs H k p2).
  destruct (verify_sound H qs (H <$> m) k p1 v1) as [|(T1 & E1 & _)]; [| |done|by right|].
  { intros y Hy%ms_in_root. unfold qs. inq. } { intros y Hy. unfold qs. inq. }
  destruct (verify_sound H qs (H <$> m) k p2 v2) as [|(T2 & E2 & _)]; [| |done|by right|].
  { intros y Hy%ms_in_root. unfold qs. inq. } { intros y Hy. unfold qs. inq. }
  left. rewrite E1, E2. rewrite (term_unique _ _ _ _ T1 T2). done.
Qed.

(** C10 *)
Lemma ms_inj qs (M1 M2 : gmap key vhash) : forall d p, length p + d = 256 ->
  (forall x, x ∈ ms_in H p M1 -> x ∈ qs) -> (forall x, x ∈ ms_in H p M2 -> x ∈ qs) ->
  ms H p M1 = ms H p M2 -> under p M1 = under p M2 \/ hash_broken H qs.
Proof.
  induction d as [|d IH]; intros p Hl Q1 Q2 E.
  - rewrite <- smt_node_hash in E.
    apply (sm_hash_inj H qs p M2) in E; [|intros x Hx; apply Q1|done].
    2:{ destruct (size_cases (under p M1)) as [E0|[(k & h & E0)|Hm]].
        - rewrite smt_node_empty in Hx by done. by apply elem_of_nil in Hx.
        - rewrite (smt_node_single _ _ _ k h) in Hx by done. by rewrite (ms_in_single _ _ _ k h).
        - exfalso. apply (under_256 p M1); [lia|done]. }
    destruct E as [E|]; [|by right]. left.
    assert (forall M : gmap key vhash, 2 <= size (under p M) -> False) as N.
    { intros M Hm. apply (under_256 p M); [lia|done]. }
    destruct (size_cases (under p M1)) as [E1|[(k1 & h1 & E1)|?]]; [| |exfalso; eauto];
    destruct (size_cases (under p M2)) as [E2|[(k2 & h2 & E2)|?]]; try (exfalso; by eauto).
    + congruence.
    + rewrite (smt_node_empty _ _ _ E1), (smt_node_single _ _ _ _ _ E2) in E. done.
    + rewrite (smt_node_single _ _ _ _ _ E1), (smt_node_empty _ _ _ E2) in E. done.
    + rewrite (smt_node_single _ _ _ _ _ E1), (smt_node_single _ _ _ _ _ E2) in E. congruence.
  - destruct (size_cases (under p M1)) as [E1|[(k1 & h1 & E1)|Hm1]];
    destruct (size_cases (under p M2)) as [E2|[(k2 & h2 & E2)|Hm2]].
    + left. congruence.
    + rewrite (ms_empty _ _ _ E1), (ms_single _ _ _ _ _ E2) in E. right.
      eapply hash_ph_or; [apply Q2; rewrite (ms_in_single _ _ _ _ _ E2); apply elem_of_list_here|done].
    + rewrite (ms_empty _ _ _ E1), (ms_many _ _ _ Hm2) in E. right.
      eapply hash_ph_or; [apply Q2, (ms_in_internal _ _ _ Hm2)|done].
    + rewrite (ms_single _ _ _ _ _ E1), (ms_empty _ _ _ E2) in E. right.
      eapply hash_ph_or; [apply Q1; rewrite (ms_in_single _ _ _ _ _ E1); apply elem_of_list_here|done].
    + rewrite (ms_single _ _ _ _ _ E1), (ms_single _ _ _ _ _ E2) in E.
      eapply hash_inj_or in E as [E|]; [|by right| |].
      * apply leaf_input_inj in E as [??]. simpl in *. left. congruence.
      * apply Q1. rewrite (ms_in_single _ _ _ _ _ E1). apply elem_of_list_here.
      * apply Q2. rewrite (ms_in_single _ _ _ _ _ E2). apply elem_of_list_here.
    + rewrite (ms_single _ _ _ _ _ E1), (ms_many _ _ _ Hm2) in E.
      eapply hash_inj_or in E as [E|]; [|by right| |].
      * by apply leaf_internal_input_ne in E.
      * apply Q1. rewrite (ms_in_single _ _ _ _ _ E1). apply elem_of_list_here.
      * apply Q2, (ms_in_internal _ _ _ Hm2).
    + rewrite (ms_empty _ _ _ E2), (ms_many _ _ _ Hm1) in E. right.
      eapply hash_ph_or; [apply Q1, (ms_in_internal _ _ _ Hm1)|done].
    + rewrite (ms_many _ _ _ Hm1), (ms_single _ _ _ _ _ E2) in E.
      eapply hash_inj_or in E as [E|]; [|by right| |].
      * symmetry in E. by apply leaf_internal_input_ne in E.
      * apply Q1, (ms_in_internal _ _ _ Hm1).
      * apply Q2. rewrite (ms_in_single _ _ _ _ _ E2). apply elem_of_list_here.
    + rewrite (ms_many _ _ _ Hm1), (ms_many _ _ _ Hm2) in E.
      eapply hash_inj_or in E as [E|]; [|by right|apply Q1, (ms_in_internal _ _ _ Hm1)|apply Q2, (ms_in_internal _ _ _ Hm2)].
      apply internal_input_inj in E as [Ea Eb].
      assert (IHb : forall b, under (p ++ [b]) M1 = under (p ++ [b]) M2 \/ hash_broken H qs).
      { intros b. apply IH.
        - rewrite app_length; simpl; lia.
        - intros x Hx. apply Q1. by eapply ms_in_half.
        - intros x Hx. apply Q2. by eapply ms_in_half.
        - by destruct b. }
      destruct (IHb false) as [F|]; [|by right]. destruct (IHb true) as [T|]; [|by right].
      left. apply map_eq. intros k. apply option_eq. intros h.
      pose proof (under_many_len _ _ Hm1) as Hlen.
      split; intros Hk; pose proof (under_halves _ _ _ _ Hlen Hk) as Hk';
        (eapply lookup_weaken; [|apply (under_app_sub p [bit_at k (length p)])]);
        destruct (bit_at k (length p)); congruence.
Qed.
Theorem C10_root_binding (m1 m2 : gmap key value) :
  smt_root m1 = smt_root m2 -> m1 = m2 \/ hash_broken H (root_inputs H m1 ++ root_inputs H m2).
Proof.
  rewrite <- !ms_nil. set (qs := root_inputs H m1 ++ root_inputs H m2). intros E.
  apply (ms_inj qs _ _ 256 []) in E; [|done|intros x Hx%ms_in_root; unfold qs; inq|intros x Hx%ms_in_root; unfold qs; inq].
  destruct E as [E|]; [|by right]. rewrite !under_nil in E.
  destruct (decide (m1 = m2)) as [|Hne]; [by left|]. right.
  assert (exists k, m1 !! k <> m2 !! k) as [k Hk].
  { destruct (decide (Forall (fun k => m1 !! k = m2 !! k) (elements (dom m1 ∪ dom m2)))) as [F|F].
    - exfalso. apply Hne, map_eq. intros k. rewrite Forall_forall in F.
      destruct (decide (k ∈ dom m1 ∪ dom m2)) as [Hd|Hd]; [by apply F, elem_of_elements|].
      apply not_elem_of_union in Hd as [D1 D2]. apply not_elem_of_dom in D1, D2. congruence.
    - apply not_Forall_Exists in F; [|apply _]. apply Exists_exists in F as (k & _ & Hk). eauto. }
  apply (f_equal (lookup k)) in E. rewrite !lookup_fmap in E.
  destruct (m1 !! k) as [x|] eqn:E1, (m2 !! k) as [y|] eqn:E2; simpl in E; try done.
  left. exists x, y. apply (value_in_root H) in E1, E2. split_and!; [inq|inq|congruence|congruence].
Qed.

(** C17 *)
Theorem C17_verify_never_panics (p : sm_proof) (r : hash) (k : key) (v : option value) :
  verify H p r k v <> Panic.
Proof. apply verify_no_panic. Qed.
Theorem C17_verify_existence_never_panics (p : sm_proof) (r : hash) (k : key) (x : value) :
  verify_existence H p r k x <> Panic.
Proof. apply verify_no_panic. Qed.
Theorem C17_verify_nonexistence_never_panics (p : sm_proof) (r : hash) (k : key) :
  verify_nonexistence H p r k <> Panic.
Proof. apply verify_no_panic. Qed.

(** ** Update proofs *)
(** Hash inputs occurring in a run of verify_update from map [m]: those of every map passed through and of
    every proof. *)
Fixpoint update_inputs (m : gmap key value) (ps : list sm_proof) (us : list (key * option value)) : list (list byte) :=
  match ps, us with
  | p :: ps', u :: us' =>
      root_inputs H m ++ proof_inputs H (step_key u.1 p) p ++ update_inputs (apply_write m u) ps' us'
  | _, _ => []
  end.
Lemma fmap_apply_write (m : gmap key value) (u : key * option value) :
  H <$> apply_write m u = apply_vh (H <$> m) u.1 (H <$> u.2).
Proof. destruct u as [k [x|]]; unfold apply_write; simpl; [apply fmap_insert|apply fmap_delete]. Qed.

(** C15: adversarial update proofs, any number of updates: an accepted list of updates in which every deletion
    carries a leaf leads to the root of the updated map. *)
Theorem C15_update_soundness (m : gmap key value) (ps : list sm_proof) (us : list (key * option value)) (r : hash) :
  verify_update H true ps (smt_root m) r us = Ok tt ->
  (forall i p u, ps !! i = Some p -> us !! i = Some u -> u.2 = None -> p_leaf p <> None) ->
  r = smt_root (apply_set m us) \/ hash_broken H (update_inputs m ps us).
Proof.
  unfold verify_update. rewrite ensure_bind. intros [L E]. apply Nat.eqb_eq in L.
  rewrite bind_ok in E. destruct E as (cur & E & Ec). apply ensure_ok, bool_decide_eq_true in Ec. subst r.
  revert m us L E. induction ps as [|p ps IH]; intros m [|[k v] us] L E Hd; try done.
  { left. cbn [update_loop] in E. apply Ok_inj in E. by rewrite <- E. }
  cbn [update_loop] in E. rewrite bind_ok in E. destruct E as (r1 & E1 & E2).
  cbn [update_inputs]. cbn [fst].
  set (qs := root_inputs H m ++ proof_inputs H (step_key k p) p ++ update_inputs (apply_write m (k, v)) ps us).
  rewrite <- ms_nil in E1.
  destruct (ccnr_sound H qs (H <$> m) k p v r1) as [|(_ & _ & Hr)]; [| | |done|by right|].
  { intros x Hx%ms_in_root. unfold qs. inq. } { intros x Hx. unfold qs. inq. }
  { intros ->. by apply (Hd 0 p (k, None)). }
  pose proof (fmap_apply_write m (k, v)) as Ew. cbn [fst snd] in Ew.
  rewrite <- Ew, ms_nil in Hr. subst r1.
  destruct (IH (apply_write m (k, v)) us) as [->|B]; [by injection L|done| | |].
  - intros i p' u Hp Hu. by apply (Hd (S i) p' u).
  - left. done.
  - right. eapply broken_mono; [|exact B]. intros x Hx. inq.
Qed.

(** C16 (refuted): a deletion with an empty proof is accepted and leaves the root as it was, in both
    build profiles, for every hash function, map and present key. *)
Theorem C16_update_deletion_unsound (ovf : bool) (m : gmap key value) (k : key) (x : value) :
  m !! k = Some x ->
  verify_update H ovf [SMProof None []] (smt_root m) (smt_root m) [(k, None)] = Ok tt /\
  (smt_root m = smt_root (delete k m) -> hash_broken H (root_inputs H m ++ root_inputs H (delete k m))).
Proof.
  intros Hk. split.
  - unfold verify_update. cbn [length Nat.eqb]. rewrite ensure_true, bind_Ok.
    cbn [update_loop]. unfold check_compute_new_root. cbn [p_leaf]. rewrite !bind_Ok.
    rewrite bool_decide_true by reflexivity. reflexivity.
  - intros E%C10_root_binding. destruct E as [E|]; [|done].
    exfalso. rewrite E, lookup_delete in Hk. done.
Qed.
End thm.

(** C18 (refuted).  Three keys: 00.., 80.., C0.. *)
Definition key_of_first (b : byte) : key :=
  B32 (b :: repeat x00 31) eq_refl.
Definition K00 := key_of_first x00.
Definition K80 := key_of_first x80.
Definition KC0 := key_of_first xc0.

Section c18.
Context (H : list byte -> bytes32) (a b c : value).
Let m : gmap key value := {[ K00 := a; K80 := b ]}.
Let L00 := LeafNode K00 (H a).
Let L80 := LeafNode K80 (H b).
Let LC0 := LeafNode KC0 (H c).
(** the honest proof of K00 ... *)
Let p := SMProof (Some L00) [SMLeaf L80].
(** ... used to insert KC0 *)
Let forged := internal_hash H (leaf_hash H L80) (leaf_hash H LC0).

Lemma c18_keys : K00 <> K80 /\ K00 <> KC0 /\ K80 <> KC0.
Proof. split_and!; intros E; apply (f_equal b32) in E; discriminate E. Qed.
Lemma c18_root : smt_root H m = internal_hash H (leaf_hash H L00) (leaf_hash H L80).
Proof.
  destruct c18_keys as (N1 & N2 & N3).
  rewrite <- ms_nil. unfold m. rewrite fmap_insert, map_fmap_singleton.
  assert (Hb : bit_at K00 0 = false /\ bit_at K80 0 = true) by (split; reflexivity).
  rewrite ms_many.
  - apply (f_equal2 (internal_hash H)).
    + apply ms_single. apply map_eq. intros k. apply option_eq. intros h.
      rewrite under_lookup. rewrite haspre_snoc by (simpl; lia). rewrite lookup_singleton_Some.
      rewrite lookup_insert_Some, lookup_singleton_Some. simpl. destruct Hb as [B1 B2].
      split.
      * intros ([[<- <-]|(_ & <- & <-)] & _ & Hbit); [done|]. rewrite B2 in Hbit. done.
      * intros [<- <-]. split; [by left|]. split; [done|done].
    + apply ms_single. apply map_eq. intros k. apply option_eq. intros h.
      rewrite under_lookup. rewrite haspre_snoc by (simpl; lia). rewrite lookup_singleton_Some.
      rewrite lookup_insert_Some, lookup_singleton_Some. simpl. destruct Hb as [B1 B2].
      split.
      * intros ([[<- <-]|(_ & <- & <-)] & _ & Hbit); [|done]. rewrite B1 in Hbit. done.
      * intros [<- <-]. split; [by right|]. split; [done|done].
  - rewrite under_nil. apply (size_many _ K00 (H a) K80 (H b)); [apply lookup_insert| |done].
    rewrite lookup_insert_ne by done. apply lookup_singleton.
Qed.
Lemma c18_root_hash ovf : root_hash H ovf p = Ok (internal_hash H (leaf_hash H L00) (leaf_hash H L80)).
Proof. destruct ovf; reflexivity. Qed.
(** overflow checks on: verification of a (malicious) proof panics *)
Theorem C18_verify_update_panics (r : hash) :
  verify_update H true [p] (smt_root H m) r [(KC0, Some c)] = Panic.
Proof.
  unfold verify_update. cbn [length Nat.eqb]. rewrite ensure_true, bind_Ok. cbn [update_loop].
  rewrite (ccnr_unfold_leaf H true p L00) by reflexivity. rewrite c18_root_hash, bind_Ok, c18_root.
  rewrite bool_decide_true by reflexivity. rewrite ensure_true, bind_Ok.
  rewrite decide_False by (intros E; symmetry in E; by apply c18_keys in E).
  rewrite split_path_panic; [reflexivity| |].
  - intros E; symmetry in E; by apply c18_keys in E.
  - vm_compute. lia.
Qed.
(** overflow checks off (release profile): the forged root is accepted; it is not the root of the map with KC0
    inserted: K00 has been erased from it and K80 moved *)
Theorem C18_verify_update_accepts_forged_root :
  verify_update H false [p] (smt_root H m) forged [(KC0, Some c)] = Ok tt.
Proof.
  unfold verify_update. cbn [length Nat.eqb]. rewrite ensure_true, bind_Ok. cbn [update_loop].
  rewrite (ccnr_unfold_leaf H false p L00) by reflexivity. rewrite c18_root_hash, bind_Ok, c18_root.
  rewrite bool_decide_true by reflexivity. rewrite ensure_true, bind_Ok.
  rewrite decide_False by (intros E; symmetry in E; by apply c18_keys in E).
  assert (E1 : compute_new_merkle_path_on_split H false p L00 KC0 c = Ok (SMProof (Some LC0) [SMLeaf L80]))
    by reflexivity.
  rewrite E1, bind_Ok.
  assert (E2 : root_hash H false (SMProof (Some LC0) [SMLeaf L80]) = Ok forged) by reflexivity.
  rewrite E2, !bind_Ok. rewrite bool_decide_true by reflexivity. reflexivity.
Qed.
Theorem C18_forged_root_is_wrong :
  forged = smt_root H (<[ KC0 := c ]> m) ->
  hash_broken H (root_inputs H (<[ KC0 := c ]> m) ++ proof_inputs H KC0 (SMProof (Some LC0) [SMLeaf L80])).
Proof.
  intros E. set (qs := root_inputs H _ ++ _).
  assert (V : verify H (SMProof (Some LC0) [SMLeaf L80]) forged KC0 (Some c) = Ok tt).
  { unfold verify. cbn [p_siblings p_leaf length]. change (1 <=? 256)%nat with true. rewrite ensure_true, bind_Ok.
    repeat (rewrite bool_decide_true by reflexivity). repeat (rewrite ?ensure_true, ?bind_Ok).
    rewrite usub_ok by lia. rewrite bind_Ok.
    rewrite bool_decide_true; [reflexivity|]. reflexivity. }
  rewrite E, <- ms_nil in V.
  apply (verify_sound H qs) in V; [|intros y Hy%ms_in_root; unfold qs; inq|intros y Hy; unfold qs; inq].
  destruct V as [|(T & _)]; [done|]. exfalso. destruct c18_keys as (N1 & N2 & N3).
  destruct T as (_ & T & _). cbn [p_siblings length] in T.
  assert (2 <= size (under (kpre 1 KC0) (H <$> <[KC0:=c]> m))); [|lia].
  apply (size_many _ KC0 (H c) K80 (H b)); [| |done]; rewrite under_lookup, lookup_fmap.
  - rewrite lookup_insert. split; reflexivity.
  - rewrite lookup_insert_ne by done. unfold m. rewrite lookup_insert_ne by done. rewrite lookup_singleton.
    split; reflexivity.
Qed.

(** Non-vacuity: a two-key tree with a one-sibling proof meets the hypotheses of C08 and C50 ... *)
Example C08_witness : verify_existence H p (smt_root H m) K00 a = Ok tt.
Proof.
  rewrite c18_root. unfold p, verify_existence, verify. cbn [p_siblings p_leaf length].
  change (1 <=? 256)%nat with true. rewrite ensure_true, bind_Ok.
  repeat (rewrite bool_decide_true by reflexivity). repeat (rewrite ?ensure_true, ?bind_Ok).
  rewrite usub_ok by lia. rewrite bind_Ok. rewrite bool_decide_true; reflexivity.
Qed.
End c18.
(** ... and every map and key has a verifying proof (C08, C09, C50), every write of a key, and every deletion of a
    present key, has an accepted update proof with a leaf when deleting (C15). *)
Example C08_C09_C50_witness H (m : gmap key value) (k : key) :
  exists p, verify H p (smt_root H m) k (m !! k) = Ok tt.
Proof.
  destruct (term_exists (H <$> m) k) as [n T]. exists (hproof H (H <$> m) k n).
  rewrite <- ms_nil. apply verify_complete; [done|]. by rewrite lookup_fmap.
Qed.
Example C15_witness H (m : gmap key value) (k : key) (v : option value) :
  (v = None -> is_Some (m !! k)) ->
  exists p, verify_update H true [p] (smt_root H m) (smt_root H (apply_write m (k, v))) [(k, v)] = Ok tt
            /\ (v = None -> p_leaf p <> None).
Proof.
  intros Hv. destruct (term_exists (H <$> m) k) as [n T]. exists (hproof H (H <$> m) k n).
  assert (Hv' : v = None -> is_Some ((H <$> m) !! k)).
  { intros E. destruct (Hv E) as [x Hx]. rewrite lookup_fmap, Hx. simpl. eauto. }
  split.
  - unfold verify_update. cbn [length Nat.eqb]. rewrite ensure_true, bind_Ok. cbn [update_loop].
    rewrite <- !ms_nil, (ccnr_honest H true _ k n v T Hv'), !bind_Ok, (fmap_apply_write H).
    rewrite bool_decide_true by reflexivity. reflexivity.
  - intros E. rewrite hproof_leaf. destruct (Hv' E) as [h Hh].
    destruct (term_cases _ _ _ T) as [(_ & _ & C)|(k' & h' & _ & -> & _)]; [congruence|done].
Qed.
Print Assumptions C08_existence_soundness.
Print Assumptions C09_nonexistence_soundness.
Print Assumptions C10_root_binding.
Print Assumptions C15_update_soundness.
Print Assumptions C16_update_deletion_unsound.
Print Assumptions C17_verify_never_panics.
Print Assumptions C18_verify_update_panics.
Print Assumptions C18_verify_update_accepts_forged_root.
Print Assumptions C18_forged_root_is_wrong.
Print Assumptions C50_proofs_unique.
