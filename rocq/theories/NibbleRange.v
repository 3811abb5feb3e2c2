(** NibbleRangeIterator: src/types/nibble.rs:49-97. *)
From Verif Require Import Base NibblePath.
From Coq Require Import Lia.
Local Open Scope nat_scope.

(** nibble.rs:51-55: the sorted pairs, the nibble index and the position *)
Record nri : Type := NRI { nri_kvs : list (key * vhash); nri_idx : nat; nri_pos : nat }.
(** nibble.rs:58-66 new *)
Definition nri_new (kvs : list (key * vhash)) (nibble_idx : nat) : outcome nri :=
  _ ← assert_ (nibble_idx <? ROOT_NIBBLE_HEIGHT);
  Ok (NRI kvs nibble_idx 0).
(** [sorted_kvs[i].0.0.nibble(nibble_idx)] *)
Definition kv_nibble (kvs : list (key * vhash)) (idx i : nat) : outcome N :=
  kv ← unwrap (kvs !! i); b32_nibble kv.1 idx.
(** nibble.rs:76-84 the binary search loop; [j - i] decreases in every round, so [rounds] = number of
    pairs suffices *)
Fixpoint nri_search (rounds : nat) (kvs : list (key * vhash)) (idx : nat) (cur : N) (i j : nat) : outcome nat :=
  match rounds with
  | O => Panic
  | Datatypes.S r =>
      if i <? j then
        let mid := j - (j - i) / 2 in
        x ← kv_nibble kvs idx mid;
        if (cur <? x)%N then
          _ ← assert_ (1 <=? mid);
          nri_search r kvs idx cur i (mid - 1)
        else nri_search r kvs idx cur mid j
      else Ok i
  end.
(** nibble.rs:71-90 next *)
Definition nri_next (it : nri) : outcome (option (nat * nat) * nri) :=
  let left := nri_pos it in
  if left <? length (nri_kvs it) then
    cur ← kv_nibble (nri_kvs it) (nri_idx it) left;
    i ← nri_search (length (nri_kvs it)) (nri_kvs it) (nri_idx it) cur left (length (nri_kvs it) - 1);
    Ok (Some (left, i), NRI (nri_kvs it) (nri_idx it) (i + 1))
  else Ok (None, it).
(** a [for] loop over the iterator: it runs at most once per pair, and once more to see the end *)
Fixpoint nri_drain_loop (rounds : nat) (it : nri) : outcome (list (nat * nat)) :=
  match rounds with
  | O => Panic
  | Datatypes.S r =>
      o ← nri_next it;
      match o.1 with None => Ok [] | Some lr => l ← nri_drain_loop r o.2; Ok (lr :: l) end
  end.
Definition nri_ranges (kvs : list (key * vhash)) (nibble_idx : nat) : outcome (list (nat * nat)) :=
  it ← nri_new kvs nibble_idx; nri_drain_loop (length kvs + 1) it.
