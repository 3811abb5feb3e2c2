(** C37: the packing used in the model of tree.rs is that of the byte-level path type. *)
From Verif Require Import Base Spec KeyFacts Tree NibblePath NibbleFacts ThmNibble.
From Coq Require Import Lia.
Local Open Scope nat_scope.
Lemma pack_represents l : represents (NP (length l) (pack_nibbles l)) l.
Proof.
  assert (G : forall n l, length l <= n -> represents (NP (length l) (pack_nibbles l)) l); [|by apply (G (length l))]. clear l.
  induction n as [|n IH]; intros l L; destruct l as [|a [|b l]]; cbn [length] in L; try lia; [done|done| |].
  - split; [done|]. cbn [pack_nibbles np_bytes length Nat.even app]. destruct a as [[] [] [] []]; reflexivity.
  - destruct (IH l) as [_ E]; [lia|]. split; [done|]. cbn [pack_nibbles np_bytes] in *. change (byte_of_N (N.lor (N.shiftl (nib_to_N a) 4) (nib_to_N b))) with (join a b).
    cbn [bytes_nibbles flat_map byte_nibbles app length]. change (flat_map byte_nibbles (pack_nibbles l)) with (bytes_nibbles (pack_nibbles l)). rewrite hi_join, lo_join, E. done.
Qed.
(** collecting nibbles into a path (FromIterator) and taking its bytes *)
Theorem C37_pack l : length l <= 64 -> exists p, np_collect l = Ok p /\ np_num p = length l /\ np_bytes p = pack_nibbles l.
Proof.
  intros L. destruct (C37_collect l L) as (p & E & R). exists p. split; [exact E|]. assert (p = NP (length l) (pack_nibbles l)) as ->; [|done]. apply (C37_unique _ _ l l R); [apply pack_represents|done].
Qed.
