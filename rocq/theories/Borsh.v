(** The derived Borsh codecs of the types of /repo. *)
From Verif Require Import Base NodeType ProofDef TreeCache NibblePath ChildrenArr Codec.
Local Open Scope N_scope.

(** [u64] and [usize] (written as a u64) *)
Definition c_u64 : codec N := c_uint 8.
Definition c_usize : codec nat := c_conv (fun n => Some (N.to_nat n)) N.of_nat (c_uint 8).
(** lib.rs:158-233 RootHash, KeyHash, ValueHash; [u8; 32] *)
Definition c_b32 : codec bytes32 := c_conv to_bytes32 b32 (c_bytes 32).
(** Vec<u8> *)
Definition c_byte : codec byte := c_conv (fun l => match l with [b] => Some b | _ => None end) (fun b => [b]) (c_bytes 1).
Definition c_bytevec : codec (list byte) := c_vec c_byte.
(** types/proof.rs:84-88 SparseMerkleLeafNode, node_type.rs:820-836 LeafNode: key_hash, value_hash *)
Definition c_leaf : codec leaf_node :=
  c_conv (fun x => Some (LeafNode x.1 x.2)) (fun l => (ln_key l, ln_vh l)) (c_pair c_b32 c_b32).
(** types/proof.rs:26-47 SparseMerkleNode: Null, Internal(left_child, right_child), Leaf *)
Definition c_smnode : codec smnode :=
  c_conv (fun x => Some (match x with inl _ => SMNull | inr (inl lr) => SMInternal lr.1 lr.2 | inr (inr l) => SMLeaf l end))
         (fun n => match n with SMNull => inl tt | SMInternal l r => inr (inl (l, r)) | SMLeaf l => inr (inr l) end)
         (c_enum3 c_unit (c_pair c_b32 c_b32) c_leaf).
(** types/proof/definition.rs:19-40 SparseMerkleProof: leaf, siblings, PhantomData *)
Definition c_proof : codec sm_proof :=
  c_conv (fun x => Some (SMProof x.1 (fst x.2))) (fun p => (p_leaf p, (p_siblings p, tt)))
         (c_pair (c_option c_leaf) (c_pair (c_vec c_smnode) c_unit)).
(** types/proof/definition.rs:514-517 UpdateMerkleProof *)
Definition c_update_proof : codec (list sm_proof) := c_vec c_proof.
(** types/proof/definition.rs:596-602 SparseMerkleRangeProof *)
Definition c_range_proof : codec range_proof :=
  c_conv (fun x => Some (RangeProof x.1)) (fun p => (right_siblings p, tt)) (c_pair (c_vec c_smnode) c_unit).
(** types/nibble/nibble_path.rs:19-38 NibblePath: num_nibbles, bytes *)
Definition c_npath : codec npath :=
  c_conv (fun x => Some (NP x.1 x.2)) (fun p => (np_num p, np_bytes p)) (c_pair c_usize c_bytevec).
(** node_type.rs:36-56 NodeKey with its packed path *)
Notation rawkey := (N * npath)%type (only parsing).
Definition c_nodekey : codec rawkey := c_pair c_u64 c_npath.
(** node_type.rs:104-118 NodeType *)
Definition c_node_type : codec node_type :=
  c_conv (fun x => Some (match x with inl _ => NTLeaf | inr n => NTInternal n end))
         (fun t => match t with NTLeaf => inl tt | NTInternal n => inr n end) (c_enum2 c_unit c_usize).
(** node_type.rs:134-157 Child *)
Definition c_child : codec child :=
  c_conv (fun x => Some (Child x.1 (fst x.2) (snd x.2))) (fun c => (c_hash c, (c_version c, c_type c))) (c_pair c_b32 (c_pair c_u64 c_node_type)).
(** node_type.rs:181-200 Children: the boxed array of 16 slots, then num_children *)
Definition c_children : codec carr :=
  c_conv (fun x => Some (CArr x.1 x.2)) (fun a => (ca_slots a, ca_num a)) (c_pair (c_array 16 (c_option c_child)) c_usize).
(** node_type.rs:299-314 InternalNode and 877-887 Node, with the array of children *)
Inductive raw_node : Type := RNull | RInternal (ch : carr) (leaf_count : nat) | RLeaf (l : leaf_node).
Definition c_node : codec raw_node :=
  c_conv (fun x => Some (match x with inl _ => RNull | inr (inl ic) => RInternal ic.1 ic.2 | inr (inr l) => RLeaf l end))
         (fun n => match n with RNull => inl tt | RInternal a c => inr (inl (a, c)) | RLeaf l => inr (inr l) end)
         (c_enum3 c_unit (c_pair c_children c_usize) c_leaf).
(** writer.rs:94-100 NodeStats *)
Definition c_stats : codec node_stats :=
  c_conv (fun x => Some (mkStats (fst (fst (fst x))) (snd (fst (fst x))) (snd (fst x)) (snd x)))
         (fun s => (((new_nodes s, new_leaves s), stale_nodes s), stale_leaves s)) (c_pair (c_pair (c_pair c_usize c_usize) c_usize) c_usize).

(** derived Ord of structs and tuples: field by field *)
Definition pair_cmp {A B} (ca : A -> A -> comparison) (cb : B -> B -> comparison) (x y : A * B) : comparison :=
  match ca x.1 y.1 with Eq => cb x.2 y.2 | c => c end.
(** node_type.rs:42-43 Ord of NodeKey; writer.rs:103 Ord of StaleNodeIndex; the key type (Version, KeyHash) of the value map *)
Definition nodekey_cmp : rawkey -> rawkey -> comparison := pair_cmp N.compare np_compare.
Definition stale_cmp : N * rawkey -> N * rawkey -> comparison := pair_cmp N.compare nodekey_cmp.
Definition valuekey_cmp : N * key -> N * key -> comparison := pair_cmp N.compare key_compare.

Lemma np_eta (p : npath) : NP (np_num p) (np_bytes p) = p. Proof. by destruct p. Qed.
Global Instance npath_eq_dec : EqDecision npath. Proof. solve_decision. Defined.
Global Instance npath_countable : Countable npath :=
  inj_countable' (fun p => (np_num p, np_bytes p)) (fun x => NP x.1 x.2) np_eta.

(** writer.rs:24-28 NodeBatch, 103-112 StaleNodeIndex, 117-122 TreeUpdateBatch *)
Record raw_batch : Type := RawBatch {
  rb_nodes : gmap rawkey raw_node;
  rb_values : gmap (N * key) (option value);
  rb_stale : gset (N * rawkey);
  rb_stats : list node_stats }.
Definition c_node_batch : codec (gmap rawkey raw_node * gmap (N * key) (option value)) :=
  c_pair (c_btreemap nodekey_cmp c_nodekey c_node) (c_btreemap valuekey_cmp (c_pair c_u64 c_b32) (c_option c_bytevec)).
Definition c_batch : codec raw_batch :=
  c_conv (fun x => Some (RawBatch (fst (fst (fst x))) (snd (fst (fst x))) (snd (fst x)) (snd x)))
         (fun b => (((rb_nodes b, rb_values b), rb_stale b), rb_stats b))
         (c_pair (c_pair c_node_batch (c_btreeset stale_cmp (c_pair c_u64 c_nodekey))) (c_vec c_stats)).

(** ** From the tree's structures to the serialised ones *)
(** packing of a nibble sequence, as NibblePath stores it *)
Definition pack_pair (h l : nibble) : byte := byte_of_N (N.lor (N.shiftl (nib_to_N h) 4) (nib_to_N l)).
Fixpoint pack_bytes (l : list nibble) : list byte :=
  match l with
  | [] => []
  | [h] => [pack_pair h (Nib false false false false)]
  | h :: x :: l' => pack_pair h x :: pack_bytes l'
  end.
Definition pack (l : list nibble) : npath := NP (length l) (pack_bytes l).
Definition key_raw (nk : nodekey) : rawkey := (nk.1, pack nk.2).
Definition children_raw (ch : gmap nibble child) : carr := CArr (map (fun n => ch !! n) all_nibbles) (num_children ch).
Definition node_raw (n : node) : raw_node :=
  match n with Null => RNull | Internal i => RInternal (children_raw (in_children i)) (in_leaf_count i) | Leaf l => RLeaf l end.
Definition batch_raw (b : tree_batch) : raw_batch :=
  RawBatch (kmap key_raw (node_raw <$> tb_nodes b)) (tb_values b) (set_map (fun x => (x.1, key_raw x.2)) (tb_stale b)) (tb_stats b).
