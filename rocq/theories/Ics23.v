(** Model of src/tree/ics23_impl.rs: the conversion of proofs to ICS23 proofs, and the ICS23 proof spec.  The data types
    are those of the ics23 crate (0.11), reduced to the fields and variants that occur. *)
From Coq Require Import Strings.String.
From Verif Require Import Base NodeType ProofDef TreeCache Tree Exclusion.
Local Open Scope N_scope.

(** ** ics23 crate: message types *)
Inductive hash_op : Type := NoHash | Sha256 | OtherHash.
Inductive length_op : Type := NoPrefix | OtherLength.
Record inner_op : Type := InnerOp { io_hash : hash_op; io_prefix : list byte; io_suffix : list byte }.
Record leaf_op : Type := LeafOp {
  lo_hash : hash_op; lo_prehash_key : hash_op; lo_prehash_value : hash_op; lo_length : length_op; lo_prefix : list byte }.
Record exist_proof : Type := ExistProof {
  ep_key : list byte; ep_value : list byte; ep_leaf : option leaf_op; ep_path : list inner_op }.
Record nonexist_proof : Type := NonexistProof {
  ne_key : list byte; ne_left : option exist_proof; ne_right : option exist_proof }.
Inductive commitment_proof : Type := CPExist (e : exist_proof) | CPNonexist (n : nonexist_proof).
Record inner_spec : Type := InnerSpec {
  is_child_order : list nat; is_child_size : nat; is_min_prefix : nat; is_max_prefix : nat;
  is_empty_child : list byte; is_hash : hash_op }.
Record proof_spec : Type := ProofSpec {
  ps_leaf : leaf_op; ps_inner : inner_spec; ps_min_depth : nat; ps_max_depth : nat; ps_prehash_key : bool }.

(** ics23_impl.rs:62-68, 233-239: the leaf op of the proofs and of the spec *)
Definition jmt_leaf_op : leaf_op := LeafOp Sha256 Sha256 Sha256 NoPrefix LEAF_DOMAIN_SEPARATOR.
(** ics23_impl.rs:230-251 ics23_spec *)
Definition ics23_spec : proof_spec :=
  ProofSpec (LeafOp Sha256 Sha256 Sha256 NoPrefix LEAF_DOMAIN_SEPARATOR)
    (InnerSpec [0%nat; 1%nat] 32 (length INTERNAL_DOMAIN_SEPARATOR) (length INTERNAL_DOMAIN_SEPARATOR)
               (b32 SPARSE_MERKLE_PLACEHOLDER_HASH) Sha256)
    0 64 true.

Section ics23.
Context (H : list byte -> bytes32).

(** ics23_impl.rs:24-25, 29: the order in which the loops visit the bits of the key hash: bytes 31..=0, in each
    [(byte >> bit_idx) & 1] for bit_idx 0..8 *)
Definition ics_bits (k : key) : list bool :=
  flat_map (fun b => map (fun j => N.land (N.shiftr (Byte.to_N b) j) 1 =? 1) [0;1;2;3;4;5;6;7]) (rev (b32 k)).
(** ics23_impl.rs:30-55: the inner op for one bit and sibling *)
Definition inner_for (bit : bool) (sib : hash) : inner_op :=
  if bit then InnerOp Sha256 (INTERNAL_DOMAIN_SEPARATOR ++ b32 sib) []
  else InnerOp Sha256 INTERNAL_DOMAIN_SEPARATOR (b32 sib).
(** ics23_impl.rs:22-59: the loops with [skip] and [sibling_idx] *)
Fixpoint ics_loop (bits : list bool) (skip : N) (sibs : list smnode) (idx : nat) : outcome (list inner_op) :=
  match bits with
  | [] => Ok []
  | b :: bits' =>
      if 0 <? skip then ics_loop bits' (skip - 1) sibs idx
      else
        s ← unwrap (sibs !! idx);
        r ← ics_loop bits' skip sibs (Datatypes.S idx);
        Ok (inner_for b (sm_hash H s) :: r)
  end.
(** ics23_impl.rs:14-74 sparse_merkle_proof_to_ics23_existence_proof; [ovf]: overflow checks (256 - len) *)
Definition to_ics23 (ovf : bool) (k : list byte) (v : value) (p : sm_proof) : outcome exist_proof :=
  skip ← usub ovf 256 (N.of_nat (length (p_siblings p)));
  path ← ics_loop (ics_bits (H k)) skip (p_siblings p) 0;
  Ok (ExistProof k v (Some jmt_leaf_op) path).

Context (rd : reader) (preimage : key -> option (list byte)).
(** ics23_impl.rs:88-106, 117-135, 137-153, 165-181: the existence proof of one neighbour: its leaf's key hash, the
    preimage and the value.  The first of the four copies looks up the preimage first ([pf]), the others the value. *)
Definition neighbour (ovf pf : bool) (v : version) (p : sm_proof) : outcome exist_proof :=
  l ← unwrap (p_leaf p);
  let preim := ok_or (EOther "missing preimage for key hash") (preimage (ln_key l)) in
  let val := (x ← get rd (ln_key l) v; ok_or (EOther "missing value for key hash") x) in
  '(k, x) ← (if pf then k ← preim; x ← val; Ok (k, x) else x ← val; k ← preim; Ok (k, x));
  to_ics23 ovf k x p.
(** ics23_impl.rs:81-187 exclusion_proof_to_ics23_nonexistence_proof *)
Definition exclusion_to_ics23 (ovf : bool) (k : list byte) (v : version) (e : exclusion_proof) : outcome nonexist_proof :=
  match e with
  | EPLeftmost r => r ← neighbour ovf true v r; Ok (NonexistProof k None (Some r))
  | EPMiddle r l => r ← neighbour ovf false v r; l ← neighbour ovf false v l; Ok (NonexistProof k (Some l) (Some r))
  | EPRightmost l => l ← neighbour ovf false v l; Ok (NonexistProof k (Some l) None)
  end.
(** ics23_impl.rs:192-227 get_with_ics23_proof *)
Definition get_with_ics23_proof (ovf : bool) (k : list byte) (v : version) : outcome (option value * commitment_proof) :=
  r ← get_with_exclusion_proof H rd (H k) v;
  match r with
  | inl (x, p) => e ← to_ics23 ovf k x p; Ok (Some x, CPExist e)
  | inr e => n ← exclusion_to_ics23 ovf k v e; Ok (None, CPNonexist n)
  end.
End ics23.
