(** C73: queries about versions that were never committed. *)
From Coq Require Import Strings.String.
From Verif Require Import Base Spec SpecOrder SpecRange NodeType ProofDef TreeCache Tree Mock Driver Iterator Exclusion ProofFacts StoreFacts DriverFacts DriverFacts2 ThmProof ThmStore ThmCrash ThmConc ThmPurged CommitMono ThmDamaged Demo Toy.
From Coq Require Import Lia.
Local Opaque Spec.smt.

(** *** Specification *)
(** Every query that looks at the tree reports that the version is missing. *)
Definition reports_missing (H : list byte -> bytes32) (rd : reader) (v : version) : Prop :=
  (forall k, get_with_proof H rd k v = Err (EMissingRoot v)) /\
  (forall k, get_with_exclusion_proof H rd k v = Err (EMissingRoot v)) /\
  (forall k, get_range_proof H rd k v = Err (EMissingRoot v)) /\
  get_root_hash_option H rd v = Ok None /\
  (exists e, get_root_hash H rd v = Err e) /\
  (exists e, get_leaf_count rd v = Err e) /\
  (forall start, iter_new rd v start = Err EMissingNode) /\
  (forall i, iter_new_by_index rd v i = Err EMissingNode).

Section unknown.
Context (H : list byte -> bytes32).
Lemma no_root_missing rd v : rd_node rd (nk_root v) = None -> reports_missing H rd v.
Proof.
  intros E.
  assert (G : forall k, get_with_proof H rd k v = Err (EMissingRoot v)) by (intros k; unfold get_with_proof; destruct (key_nibbles k); cbn; rewrite E; reflexivity).
  unfold reports_missing. split_and!.
  - exact G.
  - intros k. unfold get_with_exclusion_proof. by rewrite G.
  - intros k. unfold get_range_proof. by rewrite G.
  - unfold get_root_hash_option, get_root_node_option. by rewrite E.
  - unfold get_root_hash, get_root_node_option. rewrite E. by eexists.
  - unfold get_leaf_count, get_root_node_option. rewrite E. by eexists.
  - intros start. unfold iter_new. destruct (key_nibbles start); cbn; unfold rd_get_node; rewrite E; reflexivity.
  - intros i. unfold iter_new_by_index, rd_get_node. by rewrite E.
Qed.
(** A version that was not committed yet: proofs, hashes, counts and iterators report it; [get] alone does not notice and
    gives the value of the latest version. *)
Theorem C73_uncommitted_version (ops : list op) st xs (v : version) : run H ops = Ok (st, xs) -> (num_versions ops <= v)%N ->
  reports_missing H (store_reader st) v /\ forall k, get (store_reader st) k v = Ok (last_contents (history ops) !! k).
Proof.
  intros R L. split; [apply no_root_missing; cbn; by eapply run_fresh|]. intros k. unfold get. f_equal.
  apply run_inv in R as [_ S]. rewrite (value_ok H _ _ _ _ _ v k S). unfold contents_at, last_contents. rewrite take_ge; [done|]. unfold num_versions in L. lia.
Qed.
End unknown.
(** Beside it: five versions exist in the demo history, so version 9 is unknown: its proofs fail, its reads give version 4. *)
Example demo_unknown (H : list byte -> bytes32) st xs : run H demo = Ok (st, xs) ->
  get_with_proof H (store_reader st) K80 9 = Err (EMissingRoot 9) /\ get_root_hash_option H (store_reader st) 9 = Ok None /\
  get (store_reader st) K80 9 = Ok (Some va).
Proof.
  intros R. destruct (C73_uncommitted_version H demo st xs 9 R) as [M G]; [rewrite (proj1 demo_versions); lia|].
  split; [exact (proj1 M K80)|]. split; [exact (proj1 (proj2 (proj2 (proj2 M))))|]. rewrite G. clear. vm_compute. reflexivity.
Qed.
