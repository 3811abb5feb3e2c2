(** Hashers as the code uses them: SimpleHasher of src/lib.rs, fed piece by piece.  The rest of the model hashes the concatenation of the pieces with one function [H]; ThmHasher.v says for which hashers that is the same. *)
From Verif Require Import Base.

(** src/lib.rs:311-325 trait SimpleHasher: new, update, finalize *)
Record hasher (S : Type) : Type := Hasher { sh_new : S; sh_update : S -> list byte -> S; sh_finalize : S -> bytes32 }.
Arguments Hasher {S}. Arguments sh_new {S}. Arguments sh_update {S}. Arguments sh_finalize {S}.
(** what the calls [new], [update] with each piece in order, [finalize] return *)
Definition sh_digest {S} (h : hasher S) (pieces : list (list byte)) : bytes32 := sh_finalize h (fold_left (sh_update h) pieces (sh_new h)).
(** src/lib.rs:320-324 SimpleHasher::hash (provided method) *)
Definition sh_hash {S} (h : hasher S) (data : list byte) : bytes32 := sh_finalize h (sh_update h (sh_new h) data).
(** src/types/proof.rs:74-81 SparseMerkleInternalNode::hash *)
Definition sh_internal {S} (h : hasher S) (l r : hash) : hash :=
  let s := sh_new h in
  let s := sh_update h s INTERNAL_DOMAIN_SEPARATOR in
  let s := sh_update h s (b32 l) in
  let s := sh_update h s (b32 r) in
  sh_finalize h s.
(** src/types/proof.rs:150-156 SparseMerkleLeafNode::hash *)
Definition sh_leaf {S} (h : hasher S) (k : key) (vh : vhash) : hash :=
  let s := sh_new h in
  let s := sh_update h s LEAF_DOMAIN_SEPARATOR in
  let s := sh_update h s (b32 k) in
  let s := sh_update h s (b32 vh) in
  sh_finalize h s.
(** src/lib.rs:346-364 TransparentHasher: the buffer of 32 bytes; update overwrites it from the start with as many bytes as there are (zip) *)
Fixpoint overlay (buf data : list byte) : list byte :=
  match buf, data with
  | _ :: buf', d :: data' => d :: overlay buf' data'
  | _, _ => buf
  end.
Lemma overlay_length buf : forall data, length (overlay buf data) = length buf.
Proof. induction buf as [|b buf IH]; intros [|d data]; cbn; [done..|]. by rewrite IH. Qed.
Definition overlay32 (buf : bytes32) (data : list byte) : bytes32.
Proof. refine (B32 (overlay (b32 buf) data) _). rewrite overlay_length. apply b32_ok. Defined.
Definition transparent_hasher : hasher bytes32 := Hasher (B32 (repeat x00 32) eq_refl) overlay32 id.
