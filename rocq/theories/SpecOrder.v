(** Specification of ordered enumeration: the entries of a map in increasing (byte-lexicographic) key order. *)
From stdpp Require Export sorting.
From Verif Require Import Base Spec.
Definition entry_le {A} (a b : bytes32 * A) : Prop := negb (key_ltb b.1 a.1) = true.
Global Instance entry_le_dec {A} (a b : bytes32 * A) : Decision (entry_le a b).
Proof. unfold entry_le. apply _. Defined.
(** All entries, sorted by key. *)
Definition entries {A} (m : gmap bytes32 A) : list (bytes32 * A) := merge_sort entry_le (map_to_list m).
(** ... those with a key not below [k]. *)
Definition entries_from {A} (k : bytes32) (m : gmap bytes32 A) : list (bytes32 * A) :=
  filter (fun kx => key_ltb kx.1 k = false) (entries m).
(** [k'] is the greatest key of [m] below [k] / the least one above. *)
Definition pred_key {A} (m : gmap bytes32 A) (k k' : bytes32) : Prop :=
  is_Some (m !! k') /\ key_lt k' k /\ forall j, is_Some (m !! j) -> key_lt j k -> key_le j k'.
Definition succ_key {A} (m : gmap bytes32 A) (k k' : bytes32) : Prop :=
  is_Some (m !! k') /\ key_lt k k' /\ forall j, is_Some (m !! j) -> key_lt k j -> key_le k' j.
