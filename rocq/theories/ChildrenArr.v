(** Model of Children as in the code: an array of 16 slots and a counter (src/node_type.rs:192-292).  The rest of the
    model uses finite maps from nibbles; ThmChildren.v proves that the array behaves as such a map. *)
From Verif Require Import Base NodeType.
Local Open Scope nat_scope.

(** node_type.rs:192-197; the array has 16 slots *)
Record carr : Type := CArr { ca_slots : list (option child); ca_num : nat }.
(** nibble.as_usize(): nibble.rs:43-47 *)
Definition nib_idx (n : nibble) : nat := N.to_nat (nib_to_N n).
(** node_type.rs:218-220 new *)
Definition ca_new : carr := CArr (replicate 16 None) 0.
(** node_type.rs:223-229 insert *)
Definition ca_insert (a : carr) (n : nibble) (c : child) : outcome carr :=
  old ← unwrap (ca_slots a !! nib_idx n);
  let num := match old with None => S (ca_num a) | Some _ => ca_num a end in
  Ok (CArr (<[ nib_idx n := Some c ]> (ca_slots a)) num).
(** node_type.rs:232-234 get *)
Definition ca_get (a : carr) (n : nibble) : outcome (option child) := unwrap (ca_slots a !! nib_idx n).
(** node_type.rs:237-239 is_empty *)
Definition ca_is_empty (a : carr) : bool := ca_num a =? 0.
(** node_type.rs:242-248 remove; [num_children -= 1] panics on underflow *)
Definition ca_remove (a : carr) (n : nibble) : outcome carr :=
  old ← unwrap (ca_slots a !! nib_idx n);
  num ← match old with
        | Some _ => match ca_num a with O => Panic | S m => Ok m end
        | None => Ok (ca_num a)
        end;
  Ok (CArr (<[ nib_idx n := None ]> (ca_slots a)) num).
(** node_type.rs:251-253 values *)
Definition ca_values (a : carr) : list child := omap id (ca_slots a).
(** node_type.rs:256-258, 280-291 iter, iter_sorted: enumerate + Nibble::from *)
Fixpoint enum_slots (i : N) (l : list (option child)) : outcome (list (nibble * child)) :=
  match l with
  | [] => Ok []
  | None :: l' => enum_slots (i + 1) l'
  | Some c :: l' => n ← nib_from_u8 i; r ← enum_slots (i + 1) l'; Ok ((n, c) :: r)
  end.
Definition ca_iter (a : carr) : outcome (list (nibble * child)) := enum_slots 0 (ca_slots a).
(** node_type.rs:275-277 num_children *)
Definition ca_num_children (a : carr) : nat := ca_num a.
