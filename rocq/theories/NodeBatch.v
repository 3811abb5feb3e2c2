(** writer.rs: NodeBatch and its operations, and merging update batches. *)
From Verif Require Import Base NodeType TreeCache.

(** writer.rs:24-28 NodeBatch.  BTreeMaps as finite maps. *)
Record node_batch : Type := NB { nb_nodes : gmap nodekey node; nb_values : gmap (version * key) (option value) }.
(** writer.rs:23 derive(Default) *)
Definition nb_empty : node_batch := NB ∅ ∅.
(** writer.rs:32-37 new, 40-43 clear *)
Definition nb_new (nodes : gmap nodekey node) (values : gmap (version * key) (option value)) : node_batch := NB nodes values.
Definition nb_clear (b : node_batch) : node_batch := NB ∅ ∅.
(** writer.rs:46-48 get_node *)
Definition nb_get_node (b : node_batch) (nk : nodekey) : option node := nb_nodes b !! nk.
(** writer.rs:56-58 insert_node: the node that was there, and the new batch *)
Definition nb_insert_node (b : node_batch) (nk : nodekey) (n : node) : option node * node_batch :=
  (nb_nodes b !! nk, NB (<[ nk := n ]> (nb_nodes b)) (nb_values b)).
(** writer.rs:61-63 insert_value *)
Definition nb_insert_value (b : node_batch) (v : version) (k : key) (x : value) : node_batch :=
  NB (nb_nodes b) (<[ (v, k) := Some x ]> (nb_values b)).
(** std BTreeMap::extend: one insertion after the other *)
Fixpoint extend_map {K V} `{Countable K} (m : gmap K V) (l : list (K * V)) : gmap K V :=
  match l with [] => m | (k, x) :: l' => extend_map (<[ k := x ]> m) l' end.
(** writer.rs:71-78 extend *)
Definition nb_extend (b : node_batch) (nodes : list (nodekey * node)) (values : list ((version * key) * option value)) : node_batch :=
  NB (extend_map (nb_nodes b) nodes) (extend_map (nb_values b) values).
(** writer.rs:81-83 merge.  The order in which the entries of a map are visited does not matter, their keys being distinct. *)
Definition nb_merge (b rhs : node_batch) : node_batch := nb_extend b (map_to_list (nb_nodes rhs)) (map_to_list (nb_values rhs)).
(** writer.rs:86-88 is_empty *)
Definition nb_is_empty (b : node_batch) : bool := bool_decide (nb_nodes b = ∅) && bool_decide (nb_values b = ∅).

(** A client's way of merging update batches (writer.rs:118-122 TreeUpdateBatch, all fields public): node batches by
    [merge], the set of stale indices and the list of statistics by the standard [extend]. *)
Definition tb_empty : tree_batch := mkBatch ∅ ∅ ∅ [].
Definition tb_merge (b rhs : tree_batch) : tree_batch :=
  let nb := nb_merge (NB (tb_nodes b) (tb_values b)) (NB (tb_nodes rhs) (tb_values rhs)) in
  mkBatch (nb_nodes nb) (nb_values nb) (tb_stale rhs ∪ tb_stale b) (tb_stats b ++ tb_stats rhs).
