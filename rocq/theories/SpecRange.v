(** Specification of the sibling hashes on the path of a key, in the vocabulary of Spec.v only. *)
From Verif Require Import Base Spec.
Local Open Scope nat_scope.

(** The entries of [m] whose keys share their first [n] bits with [k]. *)
Definition sharing (m : gmap bytes32 (list byte)) (k : bytes32) (n : nat) : gmap bytes32 (list byte) :=
  filter (fun kv => take n (key_bits kv.1) = take n (key_bits k)) m.
(** The path of [k] in the tree of [m] ends at depth [n]: the first depth at which at most one key is left. *)
Definition path_ends (m : gmap bytes32 (list byte)) (k : bytes32) (n : nat) : Prop :=
  n <= 256 /\ size (sharing m k n) <= 1 /\ forall i, i < n -> 2 <= size (sharing m k i).
(** The entries of [m] that leave the path of [k] exactly at depth [i]: same first [i] bits, other [i]-th bit. *)
Definition leaving (m : gmap bytes32 (list byte)) (k : bytes32) (i : nat) : gmap bytes32 (list byte) :=
  filter (fun kv => take i (key_bits kv.1) = take i (key_bits k) /\ bit_at kv.1 i = negb (bit_at k i)) m.
(** The depths below [n] at which bit [b] is taken, deepest first. *)
Definition turns (b : bool) (k : bytes32) (n : nat) : list nat :=
  rev (filter (fun i => bit_at k i = b) (seq 0 n)).

Section spec.
Context (H : list byte -> bytes32).
(** The hash of the subtree beside the path of [k] at depth [i]. *)
Definition beside_hash (m : gmap bytes32 (list byte)) (k : bytes32) (i : nat) : bytes32 :=
  smt H (255 - i) (map_to_list (H <$> leaving m k i)).
(** Hashes of the subtrees to the left (where the key goes right), and to the right, deepest first. *)
Definition left_hashes (m : gmap bytes32 (list byte)) (k : bytes32) (n : nat) : list bytes32 :=
  map (beside_hash m k) (turns true k n).
Definition right_hashes (m : gmap bytes32 (list byte)) (k : bytes32) (n : nat) : list bytes32 :=
  map (beside_hash m k) (turns false k n).
End spec.
