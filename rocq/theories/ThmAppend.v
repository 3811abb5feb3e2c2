(** C62: [append_value_set] (tree.rs:450-480, feature "migration"), which adds a value set to the latest version in place.
    Five things a caller would expect of it are FALSE of the code. *)
From Verif Require Import Base Spec NodeType ProofDef TreeCache Tree Mock Driver ThmProof Demo Toy.
From Coq Require Import Strings.String Lia.
Local Opaque Spec.smt.

(** mock.rs:149 new(true): the same store, allowing nodes to be overwritten *)
Definition overwritable (s : store) : store := mkStore (st_nodes s) (st_stale s) (st_history s) true.
(** The caller's side of an append: compute the batch, write it over the old nodes. *)
Definition append (H : list byte -> bytes32) (s : store) (set : value_set) (n : version) : outcome (store * hash) :=
  '(r, b) ← append_value_set H (store_reader s) set n;
  s' ← write_tree_update_batch (overwritable s) b;
  Ok (s', r).
(** The latest contents with [set] applied. *)
Definition appended (ops : list op) (set : value_set) : gmap key value :=
  contents_at (take (N.to_nat (num_versions ops - 1)) (history ops) ++ [default [] (last (history ops)) ++ set]) (num_versions ops - 1).

Definition append_check1 (H : list byte -> bytes32) (r0 : outcome (store * list out)) (set : value_set) (n : version) (want : hash) : bool :=
  match r0 with
  | Ok (st, _) => match append H st set n with
      | Ok (s2, r) => bool_decide (r = want) && match purge_stale_nodes s2 n with
          | Ok s3 => match st_nodes s3 !! (n, []) with None => true | Some _ => false end
          | _ => false end
      | _ => false end
  | _ => false end.
Lemma append_ex1 H r0 set n want : append_check1 H r0 set n want = true -> exists st xs s2 s3, r0 = Ok (st, xs) /\
  append H st set n = Ok (s2, want) /\ purge_stale_nodes s2 n = Ok s3 /\ st_nodes s3 !! (n, []) = None.
Proof.
  unfold append_check1. intros E. destruct r0 as [[st xs]| |]; [|done..]. destruct (append H st set n) as [[s2 r]| |] eqn:E1; [|done..].
  apply andb_true_iff in E as [Er E]. apply bool_decide_eq_true in Er as ->. destruct (purge_stale_nodes s2 n) as [s3| |] eqn:E2; [|done..].
  destruct (st_nodes s3 !! (n, [])) eqn:E3; [done|]. exists st, xs, s2, s3. done.
Qed.
(** The append succeeds and returns the right root, but the root node it replaces has the same node key as the new one and is
    recorded as stale since [n]: a purge up to [n], which keeps version [n] readable after a normal commit, removes the
    root of the latest version. *)
Theorem C62_append_purge_refuted : exists H ops st xs set s2 s3, let n := (num_versions ops - 1)%N in
  run H ops = Ok (st, xs) /\ append H st set n = Ok (s2, smt_root H (appended ops set)) /\ purge_stale_nodes s2 n = Ok s3 /\
  readable (ops ++ [Purge n]) n /\ forall k, get_with_proof H (store_reader s3) k n = Err (EMissingRoot n).
Proof.
  set (ops := [Commit [[(K00, Some va)]]]). set (set := [(K80, Some vb)] : value_set).
  destruct (append_ex1 toy (run toy ops) set 0 (smt_root toy (appended ops set))) as (st & xs & s2 & s3 & R & E1 & E2 & E3); [vm_compute; reflexivity|].
  exists toy, ops, st, xs, set, s2, s3. cbv zeta. replace (num_versions ops - 1)%N with 0%N by reflexivity.
  split; [exact R|]. split; [exact E1|]. split; [exact E2|].
  split; [split; vm_compute; congruence|]. intros k. unfold get_with_proof. destruct (key_nibbles k); cbn [get_with_proof_loop store_reader rd_node nk_root]; unfold nk_root in *; rewrite E3; reflexivity.
Qed.

Definition append_check2 (H : list byte -> bytes32) (r0 : outcome (store * list out)) (set : value_set) (n : version) : bool :=
  match r0 with
  | Ok (st, _) => match append_value_set H (store_reader st) set n with Err (EOther "not the latest version of the tree") => true | _ => false end
  | _ => false end.
Lemma append_ex2 H r0 set n : append_check2 H r0 set n = true -> exists st xs, r0 = Ok (st, xs) /\
  append_value_set H (store_reader st) set n = Err (EOther "not the latest version of the tree").
Proof.
  unfold append_check2. intros E. destruct r0 as [[st xs]| |]; [|done..]. exists st, xs. split; [done|].
  destruct (append_value_set H (store_reader st) set n) as [?|e|]; [done| |done]. destruct e; try done.
  match goal with |- Err (EOther ?x) = _ => rename x into m end.
  assert (E' : m = "not the latest version of the tree"%string); [|by rewrite E'].
  repeat (destruct m as [|[[] [] [] [] [] [] [] []] m]; try discriminate E). reflexivity.
Qed.
(** The call on the latest version is refused, as not being the latest, when the greatest key was last written earlier. *)
Theorem C62_append_latest_refuted : exists H ops st xs set, let n := (num_versions ops - 1)%N in
  run H ops = Ok (st, xs) /\ readable ops n /\
  append_value_set H (store_reader st) set n = Err (EOther "not the latest version of the tree").
Proof.
  set (ops := [Commit [[(K00, Some va); (K80, Some vb)]]; Commit [[(K00, Some vb)]]]). set (set := [(KC0, Some vc)] : value_set).
  destruct (append_ex2 toy (run toy ops) set 1) as (st & xs & R & E1); [vm_compute; reflexivity|].
  exists toy, ops, st, xs, set. cbv zeta. replace (num_versions ops - 1)%N with 1%N by reflexivity.
  split; [exact R|]. split; [split; vm_compute; congruence|exact E1].
Qed.

Definition append_check3 (H : list byte -> bytes32) (r0 : outcome (store * list out)) (set : value_set) (n : version) : bool :=
  match r0 with
  | Ok (st, _) => match append_value_set H (store_reader st) set n with Panic => true | _ => false end
  | _ => false end.
Lemma append_ex3 H r0 set n : append_check3 H r0 set n = true -> exists st xs, r0 = Ok (st, xs) /\ append_value_set H (store_reader st) set n = Panic.
Proof.
  unfold append_check3. intros E. destruct r0 as [[st xs]| |]; [|done..]. exists st, xs. split; [done|].
  destruct (append_value_set H (store_reader st) set n); done.
Qed.
(** The call panics when the set deletes every key on its way and goes on. *)
Theorem C62_append_panics_refuted : exists H ops st xs set, let n := (num_versions ops - 1)%N in
  run H ops = Ok (st, xs) /\ readable ops n /\ append_value_set H (store_reader st) set n = Panic.
Proof.
  set (ops := [Commit [[(K00, Some va)]]]). set (set := [(K00, None); (K00, None); (KC0, Some vb)] : value_set).
  destruct (append_ex3 toy (run toy ops) set 0) as (st & xs & R & E1); [vm_compute; reflexivity|].
  exists toy, ops, st, xs, set. cbv zeta. replace (num_versions ops - 1)%N with 0%N by reflexivity.
  split; [exact R|]. split; [split; vm_compute; congruence|exact E1].
Qed.

Definition append_check4 (H : list byte -> bytes32) (r0 : outcome (store * list out)) (set set2 : value_set) (n : version) : bool :=
  match r0 with
  | Ok (st, _) => match append H st set n with
      | Ok (s2, _) => match append H s2 set2 n with Err _ => true | _ => false end
      | _ => false end
  | _ => false end.
Lemma append_ex4 H r0 set set2 n : append_check4 H r0 set set2 n = true -> exists st xs s2 r e, r0 = Ok (st, xs) /\
  append H st set n = Ok (s2, r) /\ append H s2 set2 n = Err e.
Proof.
  unfold append_check4. intros E. destruct r0 as [[st xs]| |]; [|done..]. destruct (append H st set n) as [[s2 r]| |] eqn:E1; [|done..].
  destruct (append H s2 set2 n) as [?|e|] eqn:E2; [done| |done]. exists st, xs, s2, r, e. done.
Qed.
(** A second append to the same version cannot be written: its root node is already recorded as stale since that version. *)
Theorem C62_append_twice_refuted : exists H ops st xs set set2 s2 r e, let n := (num_versions ops - 1)%N in
  run H ops = Ok (st, xs) /\ append H st set n = Ok (s2, r) /\ append H s2 set2 n = Err e.
Proof.
  set (ops := [Commit [[(K00, Some va)]]]). set (set := [(K80, Some vb)] : value_set). set (set2 := [(KC0, Some vc)] : value_set).
  destruct (append_ex4 toy (run toy ops) set set2 0) as (st & xs & s2 & r & e & R & E1 & E2); [vm_compute; reflexivity|].
  exists toy, ops, st, xs, set, set2, s2, r, e. cbv zeta. replace (num_versions ops - 1)%N with 0%N by reflexivity.
  split; [exact R|]. split; [exact E1|exact E2].
Qed.

Definition append_check5 (H : list byte -> bytes32) (r0 : outcome (store * list out)) (set : value_set) (n : version) (k : key) (want : hash) : bool :=
  match r0 with
  | Ok (st, _) => match append H st set n with
      | Ok (s2, r) => bool_decide (r = want) && match Tree.get (store_reader s2) k n, get_root_hash H (store_reader s2) n with
          | Ok None, Ok r' => bool_decide (r' = want)
          | _, _ => false end
      | _ => false end
  | _ => false end.
Lemma append_ex5 H r0 set n k want : append_check5 H r0 set n k want = true -> exists st xs s2, r0 = Ok (st, xs) /\
  append H st set n = Ok (s2, want) /\ Tree.get (store_reader s2) k n = Ok None /\ get_root_hash H (store_reader s2) n = Ok want.
Proof.
  unfold append_check5. intros E. destruct r0 as [[st xs]| |]; [|done..]. destruct (append H st set n) as [[s2 r]| |] eqn:E1; [|done..].
  apply andb_true_iff in E as [Er E]. apply bool_decide_eq_true in Er as ->. destruct (Tree.get (store_reader s2) k n) as [[?|]| |] eqn:E2; [done| |done..].
  destruct (get_root_hash H (store_reader s2) n) as [r'| |] eqn:E3; [|done..]. apply bool_decide_eq_true in E as ->. exists st, xs, s2. done.
Qed.
(** An append that deletes every key, and then deletes a key that is not there, returns the OLD root and keeps the old root node,
    although the values are gone. *)
Theorem C62_append_wrong_root_refuted : exists H ops st xs set s2 k x, let n := (num_versions ops - 1)%N in
  run H ops = Ok (st, xs) /\ contents_at (history ops) n = {[ k := x ]} /\ appended ops set = ∅ /\
  append H st set n = Ok (s2, smt_root H {[ k := x ]}) /\ smt_root H {[ k := x ]} <> smt_root H ∅ /\
  Tree.get (store_reader s2) k n = Ok None /\ get_root_hash H (store_reader s2) n = Ok (smt_root H {[ k := x ]}).
Proof.
  set (ops := [Commit [[(K00, Some va)]]]). set (set := [(K00, None); (K80, None)] : value_set).
  destruct (append_ex5 toy (run toy ops) set 0 K00 (smt_root toy {[ K00 := va ]})) as (st & xs & s2 & R & E1 & E2 & E3); [vm_compute; reflexivity|].
  exists toy, ops, st, xs, set, s2, K00, va. cbv zeta. replace (num_versions ops - 1)%N with 0%N by reflexivity.
  split; [exact R|]. split; [apply (bool_decide_eq_true_1 _); vm_compute; reflexivity|]. split; [apply (bool_decide_eq_true_1 _); vm_compute; reflexivity|].
  split; [exact E1|]. split; [apply (bool_decide_eq_true_1 _); vm_compute; reflexivity|]. split; [exact E2|exact E3].
Qed.
