(** Commits with their version arithmetic in u64 (Version = u64, types.rs:10).  The other files compute versions in unbounded N; here
    each addition either panics on overflow (debug builds, [ovf = true]) or wraps (release builds).  [next_version - 1]
    (tree_cache.rs:176) is only reached for [next_version > 0] and cannot underflow; there is no other arithmetic on versions. *)
From Verif Require Import Base NodeType ProofDef TreeCache Tree BatchTree Mock Driver.
Local Open Scope N_scope.

(** src/types.rs:10 [pub type Version = u64] *)
Definition u64_size : N := 2 ^ 64.
(** u64 addition *)
Definition add64 (ovf : bool) (a b : N) : outcome N :=
  if a + b <? u64_size then Ok (a + b) else if ovf then Panic else Ok ((a + b) mod u64_size).
Definition cache_with_next (c : cache) (n : version) : cache :=
  mkCache (tc_root c) n (tc_nodes c) (tc_values c) (tc_new_leaves c) (tc_stale c) (tc_stale_leaves c)
          (fz_nodes c) (fz_values c) (fz_stale c) (fz_stats c) (fz_roots c).

Section u64.
Context (H : list byte -> bytes32) (rd : reader) (ovf : bool).
(** tree_cache.rs:290-357 freeze; [self.next_version += 1] (354) is its last step *)
Definition freeze64 (c : cache) : outcome cache :=
  c' ← cache_freeze H rd c;
  n ← add64 ovf (tc_next c) 1;
  Ok (cache_with_next c' n).
(** tree.rs:426-445, 490-521, 86-117: [let version = first_version + idx as u64] per set *)
Fixpoint put_sets64 (first idx : N) (sets : list (list (key * option value))) (c : cache) : outcome cache :=
  match sets with
  | [] => Ok c
  | s :: sets' =>
      v ← add64 ovf first idx;
      c ← put_set H rd v s c;
      c ← freeze64 c;
      put_sets64 first (idx + 1) sets' c
  end.
(** tree.rs:420-446 put_value_sets *)
Definition put_value_sets64 (sets : list (list (key * option value))) (first : version) : outcome (list hash * tree_batch) :=
  c ← put_sets64 first 0 sets (cache_new rd first);
  Ok (cache_into c).
Fixpoint put_sets_with_proof64 (first idx : N) (sets : list (list (key * option value))) (c : cache) : outcome (list (list sm_proof) * cache) :=
  match sets with
  | [] => Ok ([], c)
  | s :: sets' =>
      v ← add64 ovf first idx;
      '(pfs, c) ← put_set_with_proof H rd v s c;
      c ← freeze64 c;
      '(rest, c) ← put_sets_with_proof64 first (idx + 1) sets' c;
      Ok (pfs :: rest, c)
  end.
(** tree.rs:484-525 put_value_sets_with_proof *)
Definition put_value_sets_with_proof64 (sets : list (list (key * option value))) (first : version) : outcome (list (hash * list sm_proof) * tree_batch) :=
  '(pfs, c) ← put_sets_with_proof64 first 0 sets (cache_new rd first);
  let '(roots, b) := cache_into c in
  Ok (zip roots pfs, b).
(** tree.rs:84-113 one value set of batch_put_value_sets *)
Definition batch_set64 (v : version) (s : list (key * value)) (hc : option (gmap (list nibble) bytes32)) (c : cache) : outcome cache :=
  let l := btree_collect s in
  let c := put_values v l c in
  '(nk, _, c) ← batch_insert_at H rd 64 (tc_root c) v (map (fun kx => (kx.1, value_hash H kx.2)) l) 0 hc c;
  freeze64 (cache_set_root c nk).
Fixpoint batch_sets64 (first idx : N) (sets : list (list (key * value) * option (gmap (list nibble) bytes32))) (c : cache) : outcome cache :=
  match sets with
  | [] => Ok c
  | (s, hc) :: sets' =>
      _ ← assert_ (match s with [] => false | _ => true end);
      v ← add64 ovf first idx;
      c ← batch_set64 v s hc c;
      batch_sets64 first (idx + 1) sets' c
  end.
(** tree.rs:74-120 batch_put_value_sets *)
Definition batch_put_value_sets64 (sets : list (list (key * value))) (node_hashes : option (list (gmap (list nibble) bytes32)))
    (first : version) : outcome (list hash * tree_batch) :=
  let hcs := match node_hashes with
             | Some hs => map Some hs
             | None => map (fun _ => None) sets
             end in
  _ ← assert_ (length sets =? length hcs)%nat;
  c ← batch_sets64 first 0 (zip sets hcs) (cache_new rd first);
  Ok (cache_into c).
End u64.

(** *** The client of Driver.v with these commits *)
Section driver64.
Context (H : list byte -> bytes32) (ovf : bool).
Definition step64 (st : store) (n : version) (o : op) : outcome (store * out) :=
  match o with
  | Commit sets =>
      '(roots, b) ← put_value_sets64 H (store_reader st) ovf sets n;
      st' ← write_tree_update_batch st b;
      Ok (st', OutCommit roots b)
  | CommitP sets =>
      '(roots, b) ← put_value_sets_with_proof64 H (store_reader st) ovf sets n;
      st' ← write_tree_update_batch st b;
      Ok (st', OutCommitP roots b)
  | Purge l => st' ← purge_stale_nodes st l; Ok (st', OutPurge)
  end.
Fixpoint run_from64 (st : store) (n : version) (ops : list op) : outcome (store * list out) :=
  match ops with
  | [] => Ok (st, [])
  | o :: ops' =>
      '(st', x) ← step64 st n o;
      '(st'', xs) ← run_from64 st' (n + N.of_nat (length (op_sets o))) ops';
      Ok (st'', x :: xs)
  end.
End driver64.
