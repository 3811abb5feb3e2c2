(** A client of the library: a sequence of commits and purges on a fresh MockTreeStore, as the crate's
    documentation and tests drive it (lib.rs:8-76, tests/helper.rs, tests/proptest.rs): each commit calls
    put_value_sets (or the variant with proofs) with the reader of the store and the next version, and
    writes the returned update batch; a purge calls purge_stale_nodes.  Versions start at 0. *)
From Verif Require Export Mock Tree Spec.
Local Open Scope N_scope.
Notation value_set := (list (bytes32 * option (list byte))) (only parsing).

(** the calls of a client; src/tree.rs:420-446, 484-525, src/mock.rs:182-211 *)
Inductive op : Type :=
| Commit (sets : list value_set)         (* put_value_sets + write_tree_update_batch *)
| CommitP (sets : list value_set)        (* put_value_sets_with_proof + write_tree_update_batch *)
| Purge (least_readable : version).      (* purge_stale_nodes *)
(** What the client sees of a step. *)
Inductive out : Type :=
| OutCommit (roots : list hash) (b : tree_batch)
| OutCommitP (roots : list (hash * list sm_proof)) (b : tree_batch)
| OutPurge.

(** *** specification: the history, the number of versions and the oldest readable version *)
Definition op_sets (o : op) : list value_set :=
  match o with Commit s => s | CommitP s => s | Purge _ => [] end.
Definition history (ops : list op) : list value_set := flat_map op_sets ops.
Definition num_versions (ops : list op) : version := N.of_nat (length (history ops)).
(** A purge at [l] when [n] versions are committed gives up the versions below [l], but never the latest. *)
Definition floor_step (fn : version * version) (o : op) : version * version :=
  match o with
  | Purge l => (N.max fn.1 (N.min l (fn.2 - 1)), fn.2)
  | _ => (fn.1, fn.2 + N.of_nat (length (op_sets o)))
  end.
Definition floor (ops : list op) : version := (fold_left floor_step ops (0, 0)).1.
Definition readable (ops : list op) (v : version) : Prop := floor ops <= v /\ v < num_versions ops.

(** The nodes of version [v]: its root and all that hangs below it in the store. *)
Inductive reach (rd : reader) (v : version) : nodekey -> Prop :=
| reach_root : reach rd v (nk_root v)
| reach_child nk i n c : reach rd v nk -> rd_node rd nk = Some (Internal i) -> in_children i !! n = Some c ->
    reach rd v (gen_child nk (c_version c) n).

Section driver.
Context (H : list byte -> bytes32).
(** one operation at the next version [n], as src/tests/helper.rs does: put, then write *)
Definition step (st : store) (n : version) (o : op) : outcome (store * out) :=
  match o with
  | Commit sets =>
      '(roots, b) ← put_value_sets H (store_reader st) sets n;
      st' ← write_tree_update_batch st b;
      Ok (st', OutCommit roots b)
  | CommitP sets =>
      '(roots, b) ← put_value_sets_with_proof H (store_reader st) sets n;
      st' ← write_tree_update_batch st b;
      Ok (st', OutCommitP roots b)
  | Purge l => st' ← purge_stale_nodes st l; Ok (st', OutPurge)
  end.
(** a sequence of operations from the store [st] with the next version [n] *)
Fixpoint run_from (st : store) (n : version) (ops : list op) : outcome (store * list out) :=
  match ops with
  | [] => Ok (st, [])
  | o :: ops' =>
      '(st', x) ← step st n o;
      '(st'', xs) ← run_from st' (n + N.of_nat (length (op_sets o))) ops';
      Ok (st'', x :: xs)
  end.
(** ... from an empty store and version 0 *)
Definition run (ops : list op) : outcome (store * list out) := run_from store_empty 0 ops.
End driver.
