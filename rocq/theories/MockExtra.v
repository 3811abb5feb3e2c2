(** The rest of src/mock.rs: what MockTreeStore offers beside TreeReader, TreeWriter and purging (those: Mock.v). *)
From Coq Require Import Strings.String.
From Verif Require Export Mock.
Local Open Scope N_scope.

(** mock.rs:213-215 num_nodes *)
Definition num_nodes (s : store) : nat := size (st_nodes s).
(** mock.rs:156-167 put_leaf.  The node is inserted before put_value (120-146) is called, so a failure of put_value leaves the node
    in the store: the result carries the store in either case. *)
Definition put_leaf (s : store) (nk : nodekey) (l : leaf_node) (x : value) : store * outcome unit :=
  match st_nodes s !! nk with
  | Some _ => (s, Err (EOther "Key exists."))
  | None =>
      let s1 := mkStore (<[ nk := Leaf l ]> (st_nodes s)) (st_stale s) (st_history s) (st_overwrite s) in
      match put_value_hist (st_history s1) nk.1 (ln_key l) (Some x) with
      | Ok h => (mkStore (st_nodes s1) (st_stale s1) h (st_overwrite s1), Ok tt)
      | Err e => (s1, Err e)
      | Panic => (s1, Panic)
      end
  end.
(** mock.rs:30, 92-96, 169-174: the preimages, a separate map of the same structure; put_key_preimage overwrites *)
Definition preimages : Type := gmap key (list byte).
Definition put_key_preimage (p : preimages) (k : key) (x : list byte) : preimages := <[ k := x ]> p.
Definition get_preimage (p : preimages) (k : key) : outcome (option (list byte)) := Ok (p !! k).
