(** Specification, independent of the model of the code: maps, histories, the binary
    sparse Merkle root, and what it means to break the hash function. Only the vocabulary of
    Base.v (keys, their 256 bits, hash inputs) is used. *)
From Verif Require Import Base.
Local Open Scope N_scope.

(** A map from keys to values: the contents of the tree at one version. *)
Notation contents := (gmap bytes32 (list byte)) (only parsing).
(** A write sets a key ([Some]) or removes it ([None]); a value set is a list of writes, applied in order;
    a history is the list of the value sets of versions 0, 1, 2, ... *)
Notation write := (bytes32 * option (list byte))%type (only parsing).
Definition apply_write (m : contents) (w : write) : contents :=
  match w.2 with Some x => <[ w.1 := x ]> m | None => delete w.1 m end.
Definition apply_set (m : contents) (s : list write) : contents := fold_left apply_write s m.
Definition apply_sets (m : contents) (sets : list (list write)) : contents := fold_left apply_set sets m.
(** Contents at version [v] of a history: the effect of value sets 0..v. *)
Definition contents_at (hist : list (list write)) (v : N) : contents :=
  apply_sets ∅ (take (S (N.to_nat v)) hist).
Definition last_contents (hist : list (list write)) : contents := apply_sets ∅ hist.

(** Byte-lexicographic order on keys. *)
Definition key_lt (x y : bytes32) : Prop := key_compare x y = Lt.
Definition key_le (x y : bytes32) : Prop := x = y \/ key_lt x y.

(** The i-th bit of a key, most significant first. *)
Definition bit_at (k : bytes32) (i : nat) : bool := nth i (key_bits k) false.

(** Entries whose key has bit [b] at the level with [S d] bits left. *)
Definition side (b : bool) (d : nat) (l : list (bytes32 * bytes32)) : list (bytes32 * bytes32) :=
  filter (fun kv => bit_at kv.1 (256 - d) = b) l.

Section smt.
Context (H : list byte -> bytes32).

(** Root of the sparse Merkle (sub)tree with [d] levels left, holding the (key, value hash) entries [l]. *)
Fixpoint smt (d : nat) (l : list (bytes32 * bytes32)) {struct d} : bytes32 :=
  match l with
  | [] => SPARSE_MERKLE_PLACEHOLDER_HASH
  | [(k, h)] => H (leaf_input k h)
  | _ =>
      match d with
      | O => SPARSE_MERKLE_PLACEHOLDER_HASH (* two different keys differ in some bit *)
      | S d' => H (internal_input (smt d' (side false d l)) (smt d' (side true d l)))
      end
  end.

(** Root hash of a map. *)
Definition smt_root (m : contents) : bytes32 := smt 256 (map_to_list (H <$> m)).

(** All inputs given to the hash function when computing [smt d l]. *)
Fixpoint smt_inputs (d : nat) (l : list (bytes32 * bytes32)) {struct d} : list (list byte) :=
  match l with
  | [] => []
  | [(k, h)] => [leaf_input k h]
  | _ =>
      match d with
      | O => []
      | S d' =>
          internal_input (smt d' (side false d l)) (smt d' (side true d l))
          :: smt_inputs d' (side false d l) ++ smt_inputs d' (side true d l)
      end
  end.
(** ... and when computing the root of a map: node inputs and the values themselves. *)
Definition root_inputs (m : contents) : list (list byte) :=
  smt_inputs 256 (map_to_list (H <$> m)) ++ (map_to_list m).*2.

(** The hash function is broken on the inputs [qs]: two different inputs collide, or an input hashes to the
    placeholder constant. *)
Definition hash_broken (qs : list (list byte)) : Prop :=
  (exists x y, x ∈ qs /\ y ∈ qs /\ x <> y /\ H x = H y) \/
  (exists x, x ∈ qs /\ H x = SPARSE_MERKLE_PLACEHOLDER_HASH).
End smt.
