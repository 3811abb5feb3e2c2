(** Model of the exclusion proofs of src/tree.rs (lines 1082-1354, 1433-1480). *)
From Coq Require Import Strings.String.
From Verif Require Export Tree.
Local Open Scope N_scope.

(** tree.rs:1433-1444 ExclusionProof *)
Inductive exclusion_proof : Type :=
| EPLeftmost (leftmost_right : sm_proof)
| EPMiddle (leftmost_right rightmost_left : sm_proof)
| EPRightmost (rightmost_left : sm_proof).
(** tree.rs:1447-1459 Extreme, opposite *)
Inductive extreme : Type := ELeft | ERight.
Definition opposite (e : extreme) : extreme := match e with ELeft => ERight | ERight => ELeft end.
(** tree.rs:1462-1473 SearchResult; [parents] and the paths in the order of the Vec / NibblePath *)
Inductive search_result : Type :=
| FoundLeaf (ordering : comparison) (leaf : key) (path : list nibble) (parents : list internal_node)
| FoundInternal (path : list nibble) (parents : list internal_node).

(** tree.rs:1089-1108 neighbor_nibble.  Children have distinct nibbles, so max_by_key/min_by_key are the
    last/first element in nibble order, in which children_unsorted (node_type.rs:464-466, 256-258: the array) yields them. *)
Definition neighbor_nibble (i : internal_node) (idx : nibble) (e : extreme) : option (nibble * version) :=
  match e with
  | ELeft => p ← last (filter (fun nc : nibble * child => nib_ltb nc.1 idx = true) (children_iter (in_children i))); Some (p.1, c_version p.2)
  | ERight => p ← head (filter (fun nc : nibble * child => nib_ltb idx nc.1 = true) (children_iter (in_children i))); Some (p.1, c_version p.2)
  end.
(** tree.rs:1315-1322 min_or_max *)
Definition min_or_max (i : internal_node) (e : extreme) : option nibble :=
  match e with
  | ELeft => fst <$> head (children_iter (in_children i))
  | ERight => fst <$> last (children_iter (in_children i))
  end.

Section excl.
Context (H : list byte -> bytes32) (rd : reader).

(** tree.rs:1308-1354 get_extreme_key_hash; [fuel] is the number of depths left in
    nibble_depth..=ROOT_NIBBLE_HEIGHT. *)
Fixpoint extreme_loop (fuel depth : nat) (v : version) (nk : nodekey) (e : extreme) : outcome key :=
  match fuel with
  | O => Err (EOther "Jellyfish Merkle tree has cyclic graph inside.")
  | S f =>
      nd ← ok_or (if (depth =? 0)%nat then EMissingRoot v else EMissingNode) (rd_node rd nk);
      match nd with
      | Internal i =>
          n ← unwrap (min_or_max i e);
          ck ← get_only_child_without_siblings nk i n;
          match ck with
          | Some ck => extreme_loop f (S depth) v ck e
          | None => Err (EOther "Internal node has no children")
          end
      | Leaf l => Ok (ln_key l)
      | Null => Err (EOther "Null node cannot have children")
      end
  end.
Definition get_extreme_key_hash (v : version) (nk : nodekey) (depth : nat) (e : extreme) : outcome key :=
  extreme_loop (65 - depth) depth v nk e.

(** tree.rs:1109-1126: the loop popping path and parents together; both reversed here *)
Fixpoint closest_loop (v : version) (e : extreme) (rpath : list nibble) (rparents : list internal_node) : outcome (option key) :=
  match rpath, rparents with
  | idx :: rp, parent :: rps =>
      match neighbor_nibble parent idx e with
      | Some (nb, w) =>
          let path := rev rp ++ [nb] in
          k ← get_extreme_key_hash v (w, path) (length path) (opposite e); Ok (Some k)
      | None => closest_loop v e rp rps
      end
  | _, _ => Ok None
  end.
(** tree.rs:1082-1126 search_closest_extreme_node *)
Definition search_closest_extreme_node (v : version) (e : extreme) (to : list nibble) (parents : list internal_node) : outcome (option key) :=
  closest_loop v e (rev to) (rev parents).

(** tree.rs:1129-1197 search_for_closest_node; structural on the nibbles left, as get_with_proof *)
Fixpoint search_loop (k : key) (v : version) (rem visited : list nibble) (nk : nodekey) (parents : list internal_node) {struct rem}
    : outcome search_result :=
  nd ← ok_or (if (length visited =? 0)%nat then EMissingRoot v else EMissingNode) (rd_node rd nk);
  match nd with
  | Internal i =>
      let parents := parents ++ [i] in
      match rem with
      | [] => Err (EOther "ran out of nibbles")
      | n :: rem' =>
          let visited := visited ++ [n] in
          ck ← get_only_child_without_siblings nk i n;
          match ck with
          | Some ck => search_loop k v rem' visited ck parents
          | None => Ok (FoundInternal visited parents)
          end
      end
  | Leaf l => Ok (FoundLeaf (key_compare (ln_key l) k) (ln_key l) visited parents)
  | Null =>
      if (length visited =? 0)%nat then Err (EOther "Cannot manufacture nonexistence proof by exclusion for the empty tree")
      else Err (EOther "Non-root null node exists")
  end.
Definition search_for_closest_node (v : version) (k : key) : outcome search_result :=
  search_loop k v (key_nibbles k) [] (nk_root v) [].

(** tree.rs:1199-1262 get_bounding_path *)
Definition get_bounding_path (k : key) (v : version) : outcome (option key * option key) :=
  r ← search_for_closest_node v k;
  match r with
  | FoundLeaf ord leaf path parents =>
      match ord with
      | Lt => r ← search_closest_extreme_node v ERight path parents; Ok (Some leaf, r)
      | Gt => l ← search_closest_extreme_node v ELeft path parents; Ok (l, Some leaf)
      | Eq => Err (EOther "found exact key when searching for bounding path for nonexistence proof")
      end
  | FoundInternal path parents =>
      r ← search_closest_extreme_node v ERight path parents;
      l ← search_closest_extreme_node v ELeft path parents;
      Ok (l, r)
  end.

(** tree.rs:1265-1306 get_with_exclusion_proof *)
Definition get_with_exclusion_proof (k : key) (v : version) : outcome (value * sm_proof + exclusion_proof) :=
  '(x, p) ← get_with_proof H rd k v;
  match x with
  | Some x => Ok (inl (x, p))
  | None =>
      '(l, r) ← get_bounding_path k v;
      match l, r with
      | Some lb, Some rb =>
          '(_, lp) ← get_with_proof H rd lb v;
          '(_, rp) ← get_with_proof H rd rb v;
          Ok (inr (EPMiddle rp lp))
      | Some lb, None => '(_, lp) ← get_with_proof H rd lb v; Ok (inr (EPRightmost lp))
      | None, Some rb => '(_, rp) ← get_with_proof H rd rb v; Ok (inr (EPLeftmost rp))
      | None, None => Err (EOther "Invalid exclusion proof")
      end
  end.
End excl.
