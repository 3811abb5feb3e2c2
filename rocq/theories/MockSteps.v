(** Model of the writing half of src/mock.rs step by step: what each loop has written when it ends, also when it ends with an error
    or with a panic.  Mock.v has the same functions with their effect on success only; ThmMockSteps.v proves that the two agree.
    A panic inside the loop unwinds through the guard of a parking_lot lock, which does not poison: what was written stays and the
    store can be used further. *)
From Coq Require Import Strings.String.
From Verif Require Import Base NodeType TreeCache Mock Codec Borsh.
Local Open Scope N_scope.

(** node_type.rs:37-57, derived Ord of NodeKey: version, number of nibbles, packed bytes *)
Definition nk_cmp (a b : nodekey) : comparison := nodekey_cmp (key_raw a) (key_raw b).
(** writer.rs:26 BTreeMap<NodeKey, Node>: iteration is in increasing order of the keys *)
Definition sorted_nodes (m : gmap nodekey node) : list (nodekey * node) := sorted_entries nk_cmp m.
(** writer.rs:103-112 derived Ord of StaleNodeIndex: stale_since_version, node_key; 92 BTreeSet<StaleNodeIndex>; mock.rs:27 BTreeSet *)
Definition log_cmp (a b : version * nodekey) : comparison := stale_cmp (a.1, key_raw a.2) (b.1, key_raw b.2).
Definition sorted_logs (s : gset (version * nodekey)) : list (version * nodekey) :=
  map fst (sorted_entries log_cmp (set_to_map (fun k => (k, tt)) s : gmap (version * nodekey) unit)).

(** mock.rs:102 [locked.nodes.insert(..)] *)
Definition set_node (s : store) (nk : nodekey) (nd : node) : store :=
  mkStore (<[ nk := nd ]> (st_nodes s)) (st_stale s) (st_history s) (st_overwrite s).
(** mock.rs:120-146: put_value changes [value_history] only *)
Definition set_history (s : store) (h : gmap key (list (version * option value))) : store :=
  mkStore (st_nodes s) (st_stale s) h (st_overwrite s).

(** mock.rs:101-106: the node is inserted first, then what it replaced is looked at *)
Fixpoint put_nodes_io (s : store) (l : list (nodekey * node)) : store * outcome unit :=
  match l with
  | [] => (s, Ok tt)
  | (nk, nd) :: l' =>
      let s' := set_node s nk nd in
      if st_overwrite s then put_nodes_io s' l'
      else match st_nodes s !! nk with
           | Some _ => (s', Panic)
           | None => put_nodes_io s' l'
           end
  end.
(** mock.rs:107-114: the first value that cannot be placed ends the loop *)
Fixpoint put_values_io (s : store) (l : list ((version * key) * option value)) : store * outcome unit :=
  match l with
  | [] => (s, Ok tt)
  | ((v, k), x) :: l' =>
      match put_value_hist (st_history s) v k x with
      | Ok h => put_values_io (set_history s h) l'
      | Err e => (s, Err e)
      | Panic => (s, Panic)
      end
  end.
(** mock.rs:99-116 write_node_batch *)
Definition write_node_batch_io (s : store) (nodes : gmap nodekey node) (values : gmap (version * key) (option value)) : store * outcome unit :=
  match put_nodes_io s (sorted_nodes nodes) with
  | (s', Ok _) => put_values_io s' (sorted_values values)
  | r => r
  end.
(** mock.rs:176-180 put_stale_node_index: insert, then the result of the insertion is looked at; 185-188 collect stops at the first error *)
Fixpoint put_stale_io (s : store) (l : list (version * nodekey)) : store * outcome unit :=
  match l with
  | [] => (s, Ok tt)
  | log :: l' =>
      let s' := mkStore (st_nodes s) ({[ log ]} ∪ st_stale s) (st_history s) (st_overwrite s) in
      if bool_decide (log ∈ st_stale s) then (s', Err (EOther "Duplicated retire log.")) else put_stale_io s' l'
  end.
(** mock.rs:182-190 write_tree_update_batch *)
Definition write_batch_io (s : store) (b : tree_batch) : store * outcome unit :=
  match write_node_batch_io s (tb_nodes b) (tb_values b) with
  | (s', Ok _) => put_stale_io s' (sorted_logs (tb_stale b))
  | r => r
  end.
(** Iterator::take_while *)
Fixpoint take_while {A} (p : A -> bool) (l : list A) : list A :=
  match l with
  | [] => []
  | x :: l' => if p x then x :: take_while p l' else []
  end.
(** mock.rs:204-208: the node is removed first, then the result of the removal is looked at, then the index entry goes *)
Fixpoint purge_io_loop (s : store) (l : list (version * nodekey)) : store * outcome unit :=
  match l with
  | [] => (s, Ok tt)
  | log :: l' =>
      match st_nodes s !! log.2 with
      | None => (s, Err (EOther "Stale node index refers to non-existent node."))
      | Some _ => purge_io_loop (mkStore (delete log.2 (st_nodes s)) (st_stale s ∖ {[ log ]}) (st_history s) (st_overwrite s)) l'
      end
  end.
(** mock.rs:192-211 purge_stale_nodes *)
Definition purge_io (s : store) (least : version) : store * outcome unit :=
  purge_io_loop s (take_while (fun log => log.1 <=? least) (sorted_logs (st_stale s))).
