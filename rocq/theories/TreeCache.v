(** Model of src/tree_cache.rs, src/reader.rs and src/writer.rs. *)
From Coq Require Import Strings.String.
From Verif Require Export NodeType.
Local Open Scope N_scope.

(** reader.rs:10-42 TreeReader.  Lookups are total functions: I/O errors are not modelled. *)
Record reader : Type := mkReader {
  rd_node : nodekey -> option node;                 (* get_node_option *)
  rd_value : version -> key -> option value;        (* get_value_option *)
  rd_rightmost : option (nodekey * leaf_node)       (* get_rightmost_leaf *)
}.
(** reader.rs:12-15 get_node *)
Definition rd_get_node (r : reader) (nk : nodekey) : outcome node := ok_or EMissingNode (rd_node r nk).
(** reader.rs:22-29 get_value *)
Definition rd_get_value (r : reader) (v : version) (k : key) : outcome value :=
  ok_or EMissingValue (rd_value r v k).

(** writer.rs:95-100 NodeStats *)
Record node_stats : Type := mkStats {
  new_nodes : nat; new_leaves : nat; stale_nodes : nat; stale_leaves : nat }.
(** writer.rs:25-28 NodeBatch and 118-122 TreeUpdateBatch, flattened: nodes, values, stale node indices
    (stale_since_version, node_key) and the statistics per version. *)
Record tree_batch : Type := mkBatch {
  tb_nodes : gmap nodekey node;
  tb_values : gmap (version * key) (option value);
  tb_stale : gset (version * nodekey);
  tb_stats : list node_stats }.

(** tree_cache.rs:116-147 TreeCache with its FrozenTreeCache (90-113) flattened in
    ([fz_*] fields; the frozen NodeBatch holds nodes and values). *)
Record cache : Type := mkCache {
  tc_root : nodekey;
  tc_next : version;
  tc_nodes : gmap nodekey node;
  tc_values : gmap (version * key) (option value);
  tc_new_leaves : nat;
  tc_stale : gset nodekey;
  tc_stale_leaves : nat;
  fz_nodes : gmap nodekey node;
  fz_values : gmap (version * key) (option value);
  fz_stale : gset (version * nodekey);
  fz_stats : list node_stats;
  fz_roots : list hash }.

Section cache.
Context (H : list byte -> bytes32) (rd : reader).

(** tree_cache.rs:154-189 TreeCache::new *)
Definition cache_new (next : version) : cache :=
  let '(root, nodes) :=
    if next =? 0 then
      match rd_node rd (nk_root PRE_GENESIS_VERSION) with
      | Some _ => (nk_root PRE_GENESIS_VERSION, ∅)
      | None => (nk_root 0, {[ nk_root 0 := Null ]})
      end
    else (nk_root (next - 1), ∅) in
  mkCache root next nodes ∅ 0 ∅ 0 ∅ ∅ ∅ [] [].
(** tree_cache.rs:198-221 TreeCache::new_overwrite (feature "migration") *)
Definition cache_new_overwrite (current : version) : outcome cache :=
  match rd_rightmost rd with
  | None => Err (EOther "empty tree is not supported")
  | Some (nk, _) =>
      _ ← ensure_ (nk_version nk =? current) "not the latest version of the tree";
      Ok (mkCache (nk_root current) current ∅ ∅ 0 ∅ 0 ∅ ∅ ∅ [] [])
  end.
(** tree_cache.rs:236-244 get_node_option *)
Definition cache_node (c : cache) (nk : nodekey) : option node :=
  match tc_nodes c !! nk with
  | Some n => Some n
  | None => match fz_nodes c !! nk with
            | Some n => Some n
            | None => rd_node rd nk
            end
  end.
(** tree_cache.rs:224-232 get_node *)
Definition cache_get_node (c : cache) (nk : nodekey) : outcome node :=
  ok_or EMissingNode (cache_node c nk).
(** tree_cache.rs:252-254 set_root_node_key *)
Definition cache_set_root (c : cache) (nk : nodekey) : cache :=
  mkCache nk (tc_next c) (tc_nodes c) (tc_values c) (tc_new_leaves c) (tc_stale c)
          (tc_stale_leaves c) (fz_nodes c) (fz_values c) (fz_stale c) (fz_stats c) (fz_roots c).
(** tree_cache.rs:257-268 put_node *)
Definition cache_put_node (c : cache) (nk : nodekey) (n : node) : outcome cache :=
  match tc_nodes c !! nk with
  | Some _ => Err (EOther "Node already exists in NodeBatch")
  | None =>
      Ok (mkCache (tc_root c) (tc_next c) (<[nk := n]> (tc_nodes c)) (tc_values c)
            (if node_is_leaf n then S (tc_new_leaves c) else tc_new_leaves c)
            (tc_stale c) (tc_stale_leaves c)
            (fz_nodes c) (fz_values c) (fz_stale c) (fz_stats c) (fz_roots c))
  end.
(** tree_cache.rs:270-272 put_value *)
Definition cache_put_value (c : cache) (v : version) (k : key) (x : option value) : cache :=
  mkCache (tc_root c) (tc_next c) (tc_nodes c) (<[(v, k) := x]> (tc_values c)) (tc_new_leaves c)
          (tc_stale c) (tc_stale_leaves c) (fz_nodes c) (fz_values c) (fz_stale c) (fz_stats c) (fz_roots c).
(** tree_cache.rs:275-287 delete_node; [num_new_leaves -= 1] panics on underflow *)
Definition cache_delete_node (c : cache) (nk : nodekey) (is_leaf : bool) : outcome cache :=
  match tc_nodes c !! nk with
  | None =>
      _ ← assert_ (negb (bool_decide (nk ∈ tc_stale c)));
      Ok (mkCache (tc_root c) (tc_next c) (tc_nodes c) (tc_values c) (tc_new_leaves c)
            ({[ nk ]} ∪ tc_stale c)
            (if is_leaf then S (tc_stale_leaves c) else tc_stale_leaves c)
            (fz_nodes c) (fz_values c) (fz_stale c) (fz_stats c) (fz_roots c))
  | Some _ =>
      nl ← (if is_leaf then match tc_new_leaves c with O => Panic | S n => Ok n end
            else Ok (tc_new_leaves c));
      Ok (mkCache (tc_root c) (tc_next c) (delete nk (tc_nodes c)) (tc_values c) nl
            (tc_stale c) (tc_stale_leaves c)
            (fz_nodes c) (fz_values c) (fz_stale c) (fz_stats c) (fz_roots c))
  end.

(** tree_cache.rs:290-357 freeze.  [extend] overwrites earlier entries: union with the new entries first. *)
Definition cache_freeze (c : cache) : outcome cache :=
  let root_nk := tc_root c in
  '(c, root_node) ←
    match cache_node c root_nk with
    | Some n => Ok (c, n)
    | None => c' ← cache_put_node c root_nk Null; Ok (c', Null)
    end;
  rh ← node_hash H root_node;
  c ← (if (0 <? tc_next c) && (bool_decide (tc_nodes c = ∅)) && (bool_decide (tc_stale c = ∅))
       then n ← cache_get_node c (tc_root c);
            cache_put_node c (nk_set_version root_nk (tc_next c)) n
       else Ok c);
  Ok (mkCache (tc_root c) (tc_next c + 1) ∅ ∅ 0 ∅ 0
        (tc_nodes c ∪ fz_nodes c) (tc_values c ∪ fz_values c)
        (set_map (pair (tc_next c)) (tc_stale c) ∪ fz_stale c)
        (fz_stats c ++ [mkStats (size (tc_nodes c)) (tc_new_leaves c) (size (tc_stale c)) (tc_stale_leaves c)])
        (fz_roots c ++ [rh])).

(** tree_cache.rs:391-405 From<TreeCache> for (Vec<RootHash>, TreeUpdateBatch) *)
Definition cache_into (c : cache) : list hash * tree_batch :=
  (fz_roots c, mkBatch (fz_nodes c) (fz_values c) (fz_stale c) (fz_stats c)).
End cache.
