(** C45 for the batches and proofs that the tree makes; C56: node paths never exceed 64 nibbles. *)
From Verif Require Import Base Spec KeyFacts SmtFacts NodeType NodeFacts ProofDef ProofFacts TreeCache Tree Mock Driver Canon PutFacts PutTop VersionFacts ValueFacts StoreFacts DriverFacts ThmStore ThmStore2.
From Verif Require Import NibblePath Codec Borsh ThmBorsh Toy Demo ThmProof.
From Coq Require Import Lia.
Local Open Scope nat_scope.
Local Opaque Spec.smt.

Section store.
Context (H : list byte -> bytes32).
Implicit Types (ops : list op).
Notation trn := (trn H).

Lemma U_size {A} p (M : gmap key A) : size (U p M) <= size M.
Proof.
  assert (S : U p M ⊆ M). { apply map_subseteq_spec. intros k h E. by apply U_lookup in E as [? _]. }
  apply subseteq_dom, subseteq_size in S. by rewrite !size_dom in S.
Qed.
Lemma trn_path (tr : list vstate) x nk nd : x ∈ tr -> nodes_of H x nk nd -> length nk.2 <= 64.
Proof. intros _ (_ & _ & [->|[(_ & U1 & _) _]]); [cbn; lia|by eapply U_len]. Qed.

(** Every node key that a commit writes or marks stale has at most 64 nibbles: NibblePath::push (which asserts that the
    path is shorter than 64) never panics while a tree is updated. *)
Theorem C56_paths ops st xs (sets : list value_set) roots b : run H ops = Ok (st, xs) ->
  put_value_sets H (store_reader st) sets (num_versions ops) = Ok (roots, b) ->
  (forall nk n, tb_nodes b !! nk = Some n -> length nk.2 <= 64) /\ (forall v nk, (v, nk) ∈ tb_stale b -> length nk.2 <= 64).
Proof.
  intros R P. apply run_inv in R as [_ S]. destruct (commit_batch H _ _ _ _ _ sets S) as (T & b' & pfss & P1 & P2 & P3 & P4).
  unfold num_versions in P. rewrite P in P1. injection P1 as -> ->. split.
  - intros nk nd E. apply (bo_nodes _ _ _ _ _ P3) in E as (x & Hx & N). by eapply trn_path.
  - intros v nk E. apply (bo_stale _ _ _ _ _ P3) in E as (x & _ & _ & ((_ & U1 & _) & _) & _). by eapply U_len.
Qed.

(** The nodes of a batch that put_value_sets returns: versions, leaf counts and paths within the limits. *)
Lemma put_nodes_fit ops st xs (sets : list value_set) roots b : run H ops = Ok (st, xs) ->
  put_value_sets H (store_reader st) sets (num_versions ops) = Ok (roots, b) ->
  U64_ok (num_versions ops + N.of_nat (length sets)) -> (forall v, u64_ok (size (contents_at (history ops ++ sets) v))) ->
  forall nk nd, tb_nodes b !! nk = Some nd -> U64_ok nk.1 /\ length nk.2 <= 64 /\ node_fits nd.
Proof.
  intros R P V1 Sz. pose proof (C56_paths _ _ _ _ _ _ R P) as [Pa1 Pa2].
  apply run_inv in R as [_ S]. destruct (commit_batch H _ _ _ _ _ sets S) as (T & b' & pfss & P1 & P2 & P3 & P4).
  unfold num_versions in P, V1. rewrite P in P1. injection P1 as -> ->. pose proof (trok_next H _ _ _ _ _ sets S T) as TO.
  assert (Vt : forall x, x ∈ (xrun H tb0 ops).1 ++ trn (xrun H tb0 ops).1 (xrun H tb0 ops).2 sets -> U64_ok (vs_v x)).
  { intros x Hx. apply (tr_lt H _ _ TO) in Hx. rewrite app_length, trn_length, (si_len _ _ _ _ _ _ S) in Hx. unfold U64_ok in *. lia. }
  intros nk nd E. specialize (Pa1 _ _ E). apply (bo_nodes _ _ _ _ _ P3) in E as (x & Hx & N). assert (Hx' : x ∈ (xrun H tb0 ops).1 ++ trn (xrun H tb0 ops).1 (xrun H tb0 ops).2 sets) by set_solver.
    pose proof N as (E1 & -> & L). split; [rewrite E1; by apply Vt|]. split; [exact Pa1|].
    set (M := a_map (vs_a x)) in *. set (ver := a_ver (vs_a x)) in *.
    assert (SzM : u64_ok (size M)). { apply elem_of_list_lookup in Hx as (i & Hx). destruct (trn_maps H _ _ _ _ _ sets S i x Hx) as [_ EM]. unfold M. rewrite EM, map_size_fmap. apply Sz. }
    destruct (decide (2 <= size (U nk.2 M))) as [D|D].
    + rewrite node_at_internal by done. cbn [node_fits in_leaf_count in_children]. pose proof (U_size nk.2 M). split; [unfold u64_ok in *; lia|].
      intros n c Ec. rewrite children_of_lookup in Ec.
      assert (Un : U (nk.2 ++ [n]) M <> ∅) by (intros Z; apply (child_of_none H M ver) in Z; congruence).
      destruct (child_of_some H M ver nk.2 n Un) as (c' & Ec' & _ & Cv & Cl & _). rewrite Ec in Ec'. injection Ec' as <-. split.
      * rewrite Cv. assert (NI : node_in x (ver (nk.2 ++ [n]), nk.2 ++ [n])).
        { right. cbn. split; [by destruct nk.2|]. split; [|done]. split; [apply prefix_nil|]. split; [done|]. right. by rewrite parent_snoc. }
        destruct TO as (_ & _ & _ & _ & TO & _). destruct (TO x _ Hx' NI) as (z & Hz & (Ez & _)). cbn in Ez. rewrite Ez. by apply Vt.
      * rewrite Cl. pose proof (U_size (nk.2 ++ [n]) M). unfold u64_ok in *. lia.
    + unfold node_at. assert (Hs : size (U nk.2 M) = length (map_to_list (U nk.2 M))) by done. destruct (map_to_list (U nk.2 M)) as [|[k h] [|? ?]]; [done|done|cbn in Hs; lia].
Qed.
(** Every batch that put_value_sets returns can be serialised, as long as the sizes fit the wire format: fewer than 2^64
    versions and keys, fewer than 2^32 nodes, values, stale indices and versions in the batch, values below 4 GiB. *)
Lemma put_batch_fits ops st xs (sets : list value_set) roots b : run H ops = Ok (st, xs) ->
  put_value_sets H (store_reader st) sets (num_versions ops) = Ok (roots, b) ->
  U64_ok (num_versions ops + N.of_nat (length sets)) -> u32_ok (length sets) ->
  (forall v, u64_ok (size (contents_at (history ops ++ sets) v))) ->
  u32_ok (size (tb_nodes b)) -> u32_ok (size (tb_values b)) -> u32_ok (size (tb_stale b)) ->
  (forall s k y, s ∈ sets -> (k, Some y) ∈ s -> u32_ok (length y)) -> batch_fits b.
Proof.
  intros R P V1 V2 Sz Z1 Z2 Z3 Vals. pose proof R as R0. pose proof P as P0. pose proof V1 as V10. pose proof (C24_stats_accurate H _ _ _ _ _ _ R P) as [St1 St2]. pose proof (C56_paths _ _ _ _ _ _ R P) as [Pa1 Pa2].
  apply run_inv in R as [_ S]. destruct (commit_batch H _ _ _ _ _ sets S) as (T & b' & pfss & P1 & P2 & P3 & P4).
  unfold num_versions in P, V1. rewrite P in P1. injection P1 as -> ->. pose proof (trok_next H _ _ _ _ _ sets S T) as TO.
  assert (Vt : forall x, x ∈ (xrun H tb0 ops).1 ++ trn (xrun H tb0 ops).1 (xrun H tb0 ops).2 sets -> U64_ok (vs_v x)).
  { intros x Hx. apply (tr_lt H _ _ TO) in Hx. rewrite app_length, trn_length, (si_len _ _ _ _ _ _ S) in Hx. unfold U64_ok in *. lia. }
  split; try done.
  - intros nk nd E. destruct (put_nodes_fit _ _ _ _ _ _ R0 P0 V10 Sz nk nd E) as (A & B & C). split_and!; [done|unfold u32_ok; lia|done].
  - intros v k x E. rewrite (bo_values _ _ _ _ _ P3) in E. apply bvals_lookup in E; [|intros; apply lookup_empty]. destruct E as [E|E]; [|by rewrite lookup_empty in E].
    pose proof (hl_lt _ _ _ _ _ E) as Lv. split; [unfold U64_ok in *; lia|]. intros y ->. apply elem_of_hl in E as (i & s & Es & _ & E).
    destruct (last_write_cases s k) as [[E' _]|(y' & l1 & l2 & E' & Ls & _)]; [congruence|]. rewrite E in E'. injection E' as <-.
    eapply (Vals s k); [by eapply elem_of_list_lookup_2|]. rewrite Ls. set_solver.
  - intros v nk E. specialize (Pa2 _ _ E). apply (bo_stale _ _ _ _ _ P3) in E as (x & Hx & -> & Sx). assert (Hx' : x ∈ (xrun H tb0 ops).1 ++ trn (xrun H tb0 ops).1 (xrun H tb0 ops).2 sets) by set_solver.
    destruct TO as (_ & TO & _). destruct (TO x nk Hx' Sx) as (Lt & _). specialize (Vt x Hx'). split; [done|]. split; [unfold U64_ok in *; lia|unfold u32_ok; lia].
  - by rewrite St1.
  - apply Forall_forall. intros s (i & E)%elem_of_list_lookup. destruct (St2 _ _ E) as (A & B & C & D). rewrite A, B, C, D. unfold u32_ok, u64_ok in *.
    assert (MF : forall (Q : (N * list nibble) * node -> Prop) `{!forall x, Decision (Q x)}, size (filter Q (tb_nodes b')) <= size (tb_nodes b')).
    { intros Q ?. pose proof (map_filter_subseteq Q (tb_nodes b')) as F. apply subseteq_dom, subseteq_size in F. by rewrite !size_dom in F. }
    assert (SF : forall (Q : N * (N * list nibble) -> Prop) `{!forall x, Decision (Q x)}, size (filter Q (tb_stale b')) <= size (tb_stale b')).
    { intros Q ?. apply subseteq_size. set_solver. }
    split_and!; match goal with |- (N.of_nat (size (filter ?Q _)) < _)%N => first [pose proof (MF Q _)|pose proof (SF Q _)] end; lia.
Qed.
Theorem C45_put_batch ops st xs (sets : list value_set) roots b : run H ops = Ok (st, xs) ->
  put_value_sets H (store_reader st) sets (num_versions ops) = Ok (roots, b) ->
  U64_ok (num_versions ops + N.of_nat (length sets)) -> u32_ok (length sets) ->
  (forall v, u64_ok (size (contents_at (history ops ++ sets) v))) ->
  u32_ok (size (tb_nodes b)) -> u32_ok (size (tb_values b)) -> u32_ok (size (tb_stale b)) ->
  (forall s k y, s ∈ sets -> (k, Some y) ∈ s -> u32_ok (length y)) -> round_trips c_batch (batch_raw b).
Proof. intros. apply C45_batch. by eapply put_batch_fits. Qed.
(** Every proof that the tree returns can be serialised and comes back unchanged. *)
Theorem C45_read_proof ops st xs (v : version) (k : key) x p : run H ops = Ok (st, xs) -> readable ops v ->
  get_with_proof H (store_reader st) k v = Ok (x, p) -> round_trips c_proof p.
Proof. intros R L E. apply C45_proof. destruct (C49_proof_size H _ _ _ _ _ _ _ R L E) as [B _]. unfold u32_ok. lia. Qed.
End store.

(** *** Concrete cases: the batch of a two-version commit and a proof read back, serialised and deserialised. *)
Definition demo_b : option tree_batch :=
  match run toy [Commit [[(K00, Some va); (K80, Some vb)]]] with
  | Ok (st, _) => match put_value_sets toy (store_reader st) [[(KC0, Some vc)]; [(K00, None)]] 1 with Ok (_, b) => Some b | _ => None end
  | _ => None
  end.
Definition demo_bytes : option (list byte) := b ← demo_b; enc c_batch (batch_raw b).
Global Instance carr_eq_dec : EqDecision ChildrenArr.carr. Proof. solve_decision. Defined.
Global Instance raw_node_eq_dec : EqDecision raw_node. Proof. solve_decision. Defined.
Global Instance stats_eq_dec : EqDecision node_stats. Proof. solve_decision. Defined.
Global Instance raw_batch_eq_dec : EqDecision raw_batch. Proof. solve_decision. Defined.
Global Instance sm_proof_eq_dec' : EqDecision sm_proof. Proof. solve_decision. Defined.
Definition no_bytes : list byte := [].
Definition demo_ok : bool :=
  match demo_b, demo_bytes with
  | Some b, Some bs => bool_decide (try_from_slice c_batch bs = Some (batch_raw b)) && (500 <? length bs) && bool_decide (size (tb_stale b) = 3)
  | _, _ => false
  end.
Example demo_batch_bytes : demo_ok = true.
Proof. vm_compute. reflexivity. Qed.
Definition demo_proof : sm_proof := SMProof (Some (LeafNode K00 K80)) [SMNull; SMInternal K00 KC0; SMLeaf (LeafNode KC0 K00)].
Example demo_proof_bytes : exists bs, enc c_proof demo_proof = Some bs /\ length bs = 200 /\ try_from_slice c_proof bs = Some demo_proof /\
  try_from_slice c_proof (bs ++ [x00]) = None.
Proof. eexists. split; [vm_compute; reflexivity|]. split; [vm_compute; reflexivity|]. split; vm_compute; reflexivity. Qed.

(** *** C55 (refuted): deserialisation does not check the structure of what it reads. *)
(** bytes that deserialise to a node key whose path claims five nibbles and has no bytes: reading its first nibble panics *)
Theorem C55_bad_path_accepted : exists bs v p, try_from_slice c_nodekey bs = Some (v, p) /\ (forall l, ~ NibbleFacts.represents p l) /\
  np_get_nibble p 0 = Panic /\ np_last p = Panic.
Proof.
  exists (replicate 8 x00 ++ [x05] ++ replicate 7 x00 ++ replicate 4 x00), 0%N, (NP 5 no_bytes). split; [vm_compute; reflexivity|].
  split; [|split; reflexivity]. intros l [A B]. unfold no_bytes in *. cbn in A, B. by destruct l.
Qed.
(** bytes that deserialise to a set of children whose counter is wrong: it claims to be empty but has a child, and
    removing that child panics *)
Definition bad_children : ChildrenArr.carr := ChildrenArr.CArr (Some (Child K00 0 NTLeaf) :: replicate 15 None) 0.
Theorem C55_bad_children_accepted : exists bs, try_from_slice c_children bs = Some bad_children /\
  (forall m, bad_children <> children_raw m) /\ ChildrenArr.ca_is_empty bad_children = true /\
  ChildrenArr.ca_remove bad_children (nib_of_N 0) = Panic.
Proof.
  exists (default [] (enc c_children bad_children)). split; [vm_compute; reflexivity|]. split; [|split; reflexivity].
  intros m E. pose proof (f_equal ChildrenArr.ca_num E) as E1. pose proof (f_equal ChildrenArr.ca_slots E) as E2. cbn [ChildrenArr.ca_num children_raw bad_children] in E1.
  rewrite ThmChildren.num_size in E1. symmetry in E1. apply map_size_empty_iff in E1 as ->. unfold bad_children, children_raw in E2. cbn [ChildrenArr.ca_slots map all_nibbles] in E2.
  rewrite !lookup_empty in E2. done.
Qed.
(** bytes that deserialise to an internal node without children: hashing it or descending into it is outside what the
    constructor InternalNode::new allows (it panics on an empty set of children) *)
Theorem C55_childless_internal_accepted : exists bs, try_from_slice c_node bs = Some (node_raw (Internal (mkInternal ∅ 7))) /\ internal_new ∅ = Panic.
Proof.
  exists (default [] (enc c_node (node_raw (Internal (mkInternal ∅ 7))))). split; [vm_compute; reflexivity|reflexivity].
Qed.
