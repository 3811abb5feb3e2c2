(** The bytes of the serialised forms, written out field by field, without reference to the codecs (for C101). *)
From Coq Require Import Strings.String.
From Verif Require Import Base NodeType ProofDef TreeCache.
Local Open Scope N_scope.

(** [n] bytes, little endian: byte number i holds bits 8i to 8i+7 *)
Definition le (n : nat) (x : N) : list byte := map (fun i => byte_of_N (x / 256 ^ N.of_nat i mod 256)) (seq 0 n).
Definition u32 (n : nat) : list byte := le 4 (N.of_nat n).
Definition u64 (n : N) : list byte := le 8 n.
Definition usize (n : nat) : list byte := le 8 (N.of_nat n).
(** a sequence: how many, then one after the other *)
Definition listed {A} (f : A -> list byte) (l : list A) : list byte := u32 (length l) ++ concat (map f l).
Definition optional_bytes {A} (f : A -> list byte) (o : option A) : list byte := match o with None => [x00] | Some x => x01 :: f x end.

(** key hash and value hash: 64 bytes *)
Definition leaf_bytes (l : leaf_node) : list byte := b32 (ln_key l) ++ b32 (ln_vh l).
Definition sibling_bytes (n : smnode) : list byte :=
  match n with SMNull => [x00] | SMInternal l r => x01 :: b32 l ++ b32 r | SMLeaf l => x02 :: leaf_bytes l end.
Definition proof_bytes (p : sm_proof) : list byte := optional_bytes leaf_bytes (p_leaf p) ++ listed sibling_bytes (p_siblings p).
Definition range_proof_bytes (p : range_proof) : list byte := listed sibling_bytes (right_siblings p).
Definition update_proof_bytes (ps : list sm_proof) : list byte := listed proof_bytes ps.

(** A path: how many nibbles; then how many bytes, and the bytes, two nibbles in each, the first of them in the high half; a missing last nibble is 0. *)
Definition nibble_at (l : list nibble) (i : nat) : N := match l !! i with Some n => nib_to_N n | None => 0 end.
Definition two_nibbles (l : list nibble) (i : nat) : byte := byte_of_N (16 * nibble_at l (2 * i) + nibble_at l (2 * i + 1)).
Definition packed (l : list nibble) : list byte := map (two_nibbles l) (seq 0 ((length l + 1) / 2)).
Definition path_bytes (l : list nibble) : list byte := usize (length l) ++ listed (fun b => [b]) (packed l).
Definition node_key_bytes (nk : nodekey) : list byte := u64 nk.1 ++ path_bytes nk.2.

(** A child: hash, version, and whether it is a leaf or how many leaves it has. *)
Definition child_bytes (c : child) : list byte :=
  b32 (c_hash c) ++ u64 (c_version c) ++ match c_type c with NTLeaf => [x00] | NTInternal n => x01 :: usize n end.
(** An internal node: the sixteen places in order, the number of children, the number of leaves. *)
Definition node_bytes (n : node) : list byte :=
  match n with
  | Null => [x00]
  | Internal i => x01 :: concat (map (fun n => optional_bytes child_bytes (in_children i !! n)) all_nibbles) ++
                         usize (size (in_children i)) ++ usize (in_leaf_count i)
  | Leaf l => x02 :: leaf_bytes l
  end.

(** The order in which the entries of a batch are written: by version, then by length of the path, then by its nibbles. *)
Definition nibbles_before (l m : list nibble) : Prop := exists p a b l' m', l = p ++ a :: l' /\ m = p ++ b :: m' /\ nib_to_N a < nib_to_N b.
Definition path_before (l m : list nibble) : Prop := (length l < length m)%nat \/ length l = length m /\ nibbles_before l m.
Definition node_key_before (x y : nodekey) : Prop := x.1 < y.1 \/ x.1 = y.1 /\ path_before x.2 y.2.
Definition stale_before (x y : N * nodekey) : Prop := x.1 < y.1 \/ x.1 = y.1 /\ node_key_before x.2 y.2.
Definition bytes_before (x y : list byte) : Prop := exists p a b l' m', x = p ++ a :: l' /\ y = p ++ b :: m' /\ Byte.to_N a < Byte.to_N b.
Definition value_key_before (x y : N * key) : Prop := x.1 < y.1 \/ x.1 = y.1 /\ bytes_before (b32 x.2) (b32 y.2).
Inductive in_order {A} (before : A -> A -> Prop) : list A -> Prop :=
| in_order_nil : in_order before []
| in_order_cons x l : (forall y, y ∈ l -> before x y) -> in_order before l -> in_order before (x :: l).

(** A batch: nodes, values (None is a deletion), stale nodes, statistics. *)
Definition stats_bytes (s : node_stats) : list byte := usize (new_nodes s) ++ usize (new_leaves s) ++ usize (stale_nodes s) ++ usize (stale_leaves s).
Definition value_bytes (x : list byte) : list byte := listed (fun b => [b]) x.
Definition batch_bytes (b : tree_batch) (bs : list byte) : Prop :=
  exists (nodes : list (nodekey * node)) (values : list ((N * key) * option value)) (stale : list (N * nodekey)),
    (forall nk n, (nk, n) ∈ nodes <-> tb_nodes b !! nk = Some n) /\ in_order node_key_before (map fst nodes) /\
    (forall vk x, (vk, x) ∈ values <-> tb_values b !! vk = Some x) /\ in_order value_key_before (map fst values) /\
    (forall i, i ∈ stale <-> i ∈ tb_stale b) /\ in_order stale_before stale /\
    bs = listed (fun e : nodekey * node => node_key_bytes e.1 ++ node_bytes e.2) nodes ++
         listed (fun e : (N * key) * option value => (u64 e.1.1 ++ b32 e.1.2) ++ optional_bytes value_bytes e.2) values ++
         listed (fun e : N * nodekey => u64 e.1 ++ node_key_bytes e.2) stale ++ listed stats_bytes (tb_stats b).

(** ** The JSON text of the proofs (compact) *)
Fixpoint commas (l : list (list byte)) : list byte := match l with [] => [] | [x] => x | x :: l' => x ++ x2c :: commas l' end.
Definition bracketed (l : list (list byte)) : list byte := x5b :: commas l ++ [x5d].
Definition in_quotes (s : string) : list byte := x22 :: list_byte_of_string s ++ [x22].
Definition member_text (m : string * list byte) : list byte := in_quotes m.1 ++ x3a :: m.2.
Definition braced (l : list (string * list byte)) : list byte := x7b :: commas (map member_text l) ++ [x7d].
Definition null_text : list byte := list_byte_of_string "null".
(** a byte as a decimal number: 0 to 255, without superfluous zeros *)
Definition digit (n : N) : byte := byte_of_N (48 + n mod 10).
Definition decimal (b : byte) : list byte :=
  let n := Byte.to_N b in if n <? 10 then [digit n] else if n <? 100 then [digit (n / 10); digit n] else [digit (n / 100); digit (n / 10); digit n].
(** a hash: the list of its bytes *)
Definition hash_text (h : bytes32) : list byte := bracketed (map decimal (b32 h)).
Definition leaf_text (l : leaf_node) : list byte := braced [("key_hash"%string, hash_text (ln_key l)); ("value_hash"%string, hash_text (ln_vh l))].
Definition sibling_text (n : smnode) : list byte :=
  match n with
  | SMNull => in_quotes "Null"
  | SMInternal l r => braced [("Internal"%string, braced [("left_child"%string, hash_text l); ("right_child"%string, hash_text r)])]
  | SMLeaf l => braced [("Leaf"%string, leaf_text l)]
  end.
Definition proof_text (p : sm_proof) : list byte :=
  braced [("leaf"%string, match p_leaf p with None => null_text | Some l => leaf_text l end);
          ("siblings"%string, bracketed (map sibling_text (p_siblings p))); ("phantom_hasher"%string, null_text)].
Definition range_proof_text (p : range_proof) : list byte := braced [("right_siblings"%string, bracketed (map sibling_text (right_siblings p))); ("_phantom"%string, null_text)].
Definition update_proof_text (ps : list sm_proof) : list byte := bracketed (map proof_text ps).
