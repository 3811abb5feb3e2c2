(** Model of src/mock.rs: MockTreeStore, the reference store (TreeReader + TreeWriter). *)
From Coq Require Import Strings.String.
From stdpp Require Export sorting.
From Verif Require Export TreeCache.
Local Open Scope N_scope.

(** mock.rs:25-40 MockTreeStoreInner / MockTreeStore (preimages: Ics23.v; the RwLock is not modelled) *)
Record store : Type := mkStore {
  st_nodes : gmap nodekey node;
  st_stale : gset (version * nodekey);
  st_history : gmap key (list (version * option value));
  st_overwrite : bool }.
(** mock.rs:42-49 Default *)
Definition store_empty : store := mkStore ∅ ∅ ∅ false.

(** mock.rs:73-89 get_value_option: newest entry (scanning from the end) with version <= max *)
Fixpoint find_value (max : version) (l : list (version * option value)) : option value :=
  match l with
  | [] => None
  | (v, x) :: l' => if v <=? max then x else find_value max l'
  end.
Definition store_value (s : store) (max : version) (k : key) : option value :=
  match st_history s !! k with
  | Some l => find_value max (rev l)
  | None => None
  end.
(** mock.rs:56-71 get_rightmost_leaf: a leaf with the greatest key; which one among equal keys depends on
    HashMap order: here the first in [map_to_list] order. *)
Fixpoint rightmost_loop (l : list (nodekey * node)) (acc : option (nodekey * leaf_node))
    : option (nodekey * leaf_node) :=
  match l with
  | [] => acc
  | (nk, Leaf lf) :: l' =>
      rightmost_loop l'
        (match acc with
         | None => Some (nk, lf)
         | Some (_, lf0) => if key_ltb (ln_key lf0) (ln_key lf) then Some (nk, lf) else acc
         end)
  | _ :: l' => rightmost_loop l' acc
  end.
Definition store_rightmost (s : store) : option (nodekey * leaf_node) :=
  rightmost_loop (map_to_list (st_nodes s)) None.
(** mock.rs:51-90 impl TreeReader for MockTreeStore *)
Definition store_reader (s : store) : reader :=
  mkReader (fun nk => st_nodes s !! nk) (store_value s) (store_rightmost s).

(** mock.rs:120-146 put_value *)
Definition put_value_hist (h : gmap key (list (version * option value))) (v : version) (k : key)
    (x : option value) : outcome (gmap key (list (version * option value))) :=
  match h !! k with
  | Some l =>
      match rev l with
      | (lv, _) :: r =>
          match N.compare v lv with
          | Lt => Err (EOther "values must be pushed in order")
          | Eq => Ok (<[ k := rev r ++ [(lv, x)] ]> h)
          | Gt => Ok (<[ k := l ++ [(v, x)] ]> h)
          end
      | [] => Ok (<[ k := l ++ [(v, x)] ]> h)
      end
  | None => Ok (<[ k := [(v, x)] ]> h)
  end.

(** Order of the BTreeMap<(Version, KeyHash), _> of values: writer.rs:27 *)
Definition vk_le (a b : (version * key) * option value) : Prop :=
  (N.ltb a.1.1 b.1.1 || (N.eqb a.1.1 b.1.1 && negb (key_ltb b.1.2 a.1.2))) = true.
Global Instance vk_le_dec a b : Decision (vk_le a b).
Proof. unfold vk_le. apply _. Defined.
Definition sorted_values (m : gmap (version * key) (option value)) : list ((version * key) * option value) :=
  merge_sort vk_le (map_to_list m).

(** mock.rs:107-114: the loop over the values of write_node_batch, put_value for each *)
Fixpoint write_values (h : gmap key (list (version * option value)))
    (l : list ((version * key) * option value)) : outcome (gmap key (list (version * option value))) :=
  match l with
  | [] => Ok h
  | ((v, k), x) :: l' => h ← put_value_hist h v k x; write_values h l'
  end.
(** mock.rs:99-116 write_node_batch.  Inserting the nodes one by one with [assert_eq!(replaced, None)]
    is: panic iff some key is already present and overwriting is not allowed. *)
Definition write_node_batch (s : store) (nodes : gmap nodekey node)
    (values : gmap (version * key) (option value)) : outcome store :=
  _ ← assert_ (st_overwrite s || bool_decide (dom nodes ∩ dom (st_nodes s) = (∅ : gset nodekey)));
  h ← write_values (st_history s) (sorted_values values);
  Ok (mkStore (nodes ∪ st_nodes s) (st_stale s) h (st_overwrite s)).
(** mock.rs:176-180 put_stale_node_index, 182-190 write_tree_update_batch *)
Definition write_tree_update_batch (s : store) (b : tree_batch) : outcome store :=
  s ← write_node_batch s (tb_nodes b) (tb_values b);
  _ ← ensure_ (bool_decide (tb_stale b ∩ st_stale s = ∅)) "Duplicated retire log.";
  Ok (mkStore (st_nodes s) (tb_stale b ∪ st_stale s) (st_history s) (st_overwrite s)).
(** mock.rs:204-208 the pruning loop *)
Fixpoint purge_loop (s : store) (l : list (version * nodekey)) : outcome store :=
  match l with
  | [] => Ok s
  | log :: l' =>
      _ ← ensure_ (match st_nodes s !! log.2 with Some _ => true | None => false end)
                  "Stale node index refers to non-existent node.";
      purge_loop (mkStore (delete log.2 (st_nodes s)) (st_stale s ∖ {[ log ]}) (st_history s)
                          (st_overwrite s)) l'
  end.
(** mock.rs:192-211 purge_stale_nodes.  The stale set is ordered by stale_since_version first, so
    take_while(stale_since_version <= l) is the filter below; the order inside is immaterial. *)
Definition purge_stale_nodes (s : store) (least : version) : outcome store :=
  purge_loop s (elements (filter (fun log => log.1 <= least) (st_stale s))).
