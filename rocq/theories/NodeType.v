(** Model of src/node_type.rs and src/types/proof.rs (node structures, hashing, siblings). *)
From Coq Require Import Strings.String.
From Verif Require Export Base.
Local Open Scope N_scope.

(** ** Node structures *)
(** node_type.rs:115-118 NodeType *)
Inductive node_type : Type := NTLeaf | NTInternal (leaf_count : nat).
(** node_type.rs:146-156 Child *)
Record child : Type := Child { c_hash : hash; c_version : version; c_type : node_type }.
(** node_type.rs:167-169 Child::is_leaf *)
Definition c_is_leaf (c : child) : bool :=
  match c_type c with NTLeaf => true | NTInternal _ => false end.
(** node_type.rs:171-176 Child::leaf_count *)
Definition c_leaf_count (c : child) : nat :=
  match c_type c with NTLeaf => 1%nat | NTInternal n => n end.
(** node_type.rs:192-197 Children: [Option<Child>; 16] plus a counter.  Modelled as a finite map from
    nibbles; the array-with-counter representation is modelled and related in ChildrenArr.v. *)
Notation children := (gmap nibble child) (only parsing).
(** node_type.rs:256-258, 280-291 Children::iter / iter_sorted: array order *)
Definition children_iter (ch : children) : list (nibble * child) :=
  omap (fun n => c ← ch !! n; Some (n, c)) all_nibbles.
(** node_type.rs:251-253 Children::values *)
Definition children_values (ch : children) : list child := map snd (children_iter ch).
(** node_type.rs:275-277 num_children *)
Definition num_children (ch : children) : nat := length (children_iter ch).
(** node_type.rs:309-314 InternalNode *)
Record internal_node : Type := mkInternal { in_children : children; in_leaf_count : nat }.
(** node_type.rs:831-836 LeafNode; types/proof.rs:85-88 SparseMerkleLeafNode has the same two fields *)
Record leaf_node : Type := LeafNode { ln_key : key; ln_vh : vhash }.
(** node_type.rs:879-886 Node *)
Inductive node : Type := Null | Internal (i : internal_node) | Leaf (l : leaf_node).
Global Instance leaf_node_eq_dec : EqDecision leaf_node.
Proof. solve_decision. Defined.
Global Instance node_type_eq_dec : EqDecision node_type.
Proof. solve_decision. Defined.
Global Instance child_eq_dec : EqDecision child.
Proof. solve_decision. Defined.
Global Instance internal_node_eq_dec : EqDecision internal_node.
Proof. solve_decision. Defined.
Global Instance node_eq_dec : EqDecision node.
Proof. solve_decision. Defined.

(** types/proof.rs:38-45 SparseMerkleNode, 61-64 SparseMerkleInternalNode *)
Inductive smnode : Type := SMNull | SMInternal (l r : hash) | SMLeaf (l : leaf_node).
Global Instance smnode_eq_dec : EqDecision smnode.
Proof. solve_decision. Defined.

(** node_type.rs:430-437 sum_leaf_count *)
Definition sum_leaf_count (ch : children) : nat := sum_list (map c_leaf_count (children_values ch)).
(** node_type.rs:408-428 InternalNode::new *)
Definition internal_new (ch : children) : outcome internal_node :=
  _ ← assert_ (negb (num_children ch =? 0)%nat);
  _ ← (if (num_children ch =? 1)%nat
       then match children_values ch with
            | c :: _ => assert_ (negb (c_is_leaf c))
            | [] => Panic
            end
       else Ok tt);
  Ok (mkInternal ch (sum_leaf_count ch)).
(** node_type.rs:469-471 InternalNode::child *)
Definition in_child (i : internal_node) (n : nibble) : option child := in_children i !! n.

(** ** u16 bitmaps *)
Definition bit_positions : list N := [0;1;2;3;4;5;6;7;8;9;10;11;12;13;14;15].
(** u16::count_ones *)
Definition count_ones (x : N) : nat := length (filter (fun i => N.testbit x i = true) bit_positions).
(** u16::trailing_zeros (16 for 0) *)
Fixpoint first_bit (x : N) (l : list N) : N :=
  match l with [] => 16 | i :: l' => if N.testbit x i then i else first_bit x l' end.
Definition trailing_zeros (x : N) : N := first_bit x bit_positions.
(** u16::leading_zeros (16 for 0) *)
Definition leading_zeros (x : N) : N :=
  match find (fun i => N.testbit x i) (rev bit_positions) with
  | Some i => 15 - i
  | None => 16
  end.

(** node_type.rs:476-489 generate_bitmaps *)
Definition bitmaps_step (bm : N * N) (nc : nibble * child) : N * N :=
  let i := nib_to_N nc.1 in
  (N.lor bm.1 (N.shiftl 1 i),
   if c_is_leaf nc.2 then N.lor bm.2 (N.shiftl 1 i) else bm.2).
Definition generate_bitmaps (i : internal_node) : outcome (N * N) :=
  let bm := fold_left bitmaps_step (children_iter (in_children i)) (0, 0) in
  _ ← assert_ (N.lor bm.1 bm.2 =? bm.1);
  Ok bm.
(** node_type.rs:492-499 range_bitmaps; [width] is 2^h here (all callers pass powers of two), so the
    assertion width.count_ones() == 1 is immediate; the others are kept. *)
Definition range_bitmaps (start : N) (h : nat) (bm : N * N) : outcome (N * N) :=
  let width := 2 ^ N.of_nat h in
  _ ← assert_ ((start <? 16) && (start mod width =? 0));
  _ ← assert_ ((width <=? 16) && (start + width <=? 16));
  let mask := N.land (N.shiftl (N.shiftl 1 width - 1) start) 65535 in
  Ok (N.land bm.1 mask, N.land bm.2 mask).
(** node_type.rs:391-393 has_only_child *)
Definition has_only_child (h : nat) (re rl : N) : bool :=
  (h =? 0)%nat || ((count_ones re =? 1)%nat && negb (rl =? 0)).
(** node_type.rs:397-404 has_child *)
Definition has_child (h : nat) (re n_bitmap rl : N) : bool :=
  (h =? 0)%nat || ((re =? n_bitmap) && negb (rl =? 0)).
(** node_type.rs:811-816 get_child_half_start (u8 shift truncates) *)
Definition child_half_start (n : nibble) (h : nat) : N :=
  N.land (N.land (N.shiftl 255 (N.of_nat h)) 255) (nib_to_N n).
(** node_type.rs:797-808 get_child_and_sibling_half_start, second component *)
Definition sibling_half_start (n : nibble) (h : nat) : N :=
  N.lxor (child_half_start n h) (N.shiftl 1 (N.of_nat h)).

Section hashing.
Context (H : list byte -> bytes32).

(** lib.rs:236-238 ValueHash::with, 247-253 KeyHash::with *)
Definition value_hash (v : value) : vhash := H v.
Definition key_hash (k : list byte) : key := H k.
(** types/proof.rs:150-156 SparseMerkleLeafNode::hash; node_type.rs:857-859 LeafNode::hash *)
Definition leaf_hash (l : leaf_node) : hash := H (leaf_input (ln_key l) (ln_vh l)).
(** types/proof.rs:74-81 SparseMerkleInternalNode::hash *)
Definition internal_hash (l r : hash) : hash := H (internal_input l r).
(** types/proof.rs:47-55 SparseMerkleNode::hash *)
Definition sm_hash (n : smnode) : hash :=
  match n with
  | SMNull => SPARSE_MERKLE_PLACEHOLDER_HASH
  | SMInternal l r => internal_hash l r
  | SMLeaf l => leaf_hash l
  end.

(** node_type.rs:566-604 merkle_hash.  [h] is the height of the range, width = 2^h;
    a range of width 1 that is non-empty always takes the second branch, so the
    recursion at h = 0 is unreachable. *)
Fixpoint merkle_hash (i : internal_node) (h : nat) (start : N) (bm : N * N) : outcome hash :=
  rb ← range_bitmaps start h bm;
  if rb.1 =? 0 then Ok SPARSE_MERKLE_PLACEHOLDER_HASH
  else if has_only_child h rb.1 rb.2 then
    n ← nib_from_u8 (trailing_zeros rb.1);
    c ← unwrap (in_child i n);
    Ok (c_hash c)
  else match h with
       | O => Panic
       | S h' =>
           l ← merkle_hash i h' start rb;
           r ← merkle_hash i h' (start + 2 ^ N.of_nat h / 2) rb;
           Ok (internal_hash l r)
       end.
(** node_type.rs:449-455 InternalNode::hash *)
Definition in_hash (i : internal_node) : outcome hash :=
  bm ← generate_bitmaps i; merkle_hash i 4 0 bm.
(** node_type.rs:958-964 Node::hash *)
Definition node_hash (n : node) : outcome hash :=
  match n with
  | Null => Ok SPARSE_MERKLE_PLACEHOLDER_HASH
  | Internal i => in_hash i
  | Leaf l => Ok (leaf_hash l)
  end.
(** node_type.rs:316-324 SparseMerkleInternalNode::from *)
Definition sm_internal_from (i : internal_node) : outcome smnode :=
  bm ← generate_bitmaps i;
  l ← merkle_hash i 3 0 bm;
  r ← merkle_hash i 3 8 bm;
  Ok (SMInternal l r).

(** node_type.rs:504-564 build_sibling.  The reader is the lookup function [rd]; a missing node
    panics (unwrap). *)
Definition build_sibling (rd : nodekey -> option node) (nk : nodekey) (i : internal_node)
    (start : N) (h : nat) (bm : N * N) : outcome smnode :=
  rb ← range_bitmaps start h bm;
  if rb.1 =? 0 then Ok SMNull
  else if has_only_child h rb.1 rb.2 then
    n ← nib_from_u8 (trailing_zeros rb.1);
    c ← unwrap (in_child i n);
    nd ← unwrap (rd (gen_child nk (c_version c) n));
    match nd with
    | Internal i' => sm_internal_from i'
    | Leaf l => Ok (SMLeaf l)
    | Null => Panic
    end
  else match h with
       | O => Panic
       | S h' =>
           l ← merkle_hash i h' start rb;
           r ← merkle_hash i h' (start + 2 ^ N.of_nat h / 2) rb;
           Ok (SMInternal l r)
       end.

(** node_type.rs:609-653 get_only_child_without_siblings: loop over heights 3..0;
    [hs] counts the heights left. *)
Fixpoint only_child_loop (nk : nodekey) (i : internal_node) (n : nibble) (bm : N * N) (hs : nat)
    : outcome (option nodekey) :=
  match hs with
  | O => Panic
  | S h =>
      rb ← range_bitmaps (child_half_start n h) h bm;
      if rb.1 =? 0 then Ok None
      else if has_only_child h rb.1 rb.2 then
        m ← nib_from_u8 (trailing_zeros rb.1);
        c ← unwrap (in_child i m);
        Ok (Some (gen_child nk (c_version c) m))
      else only_child_loop nk i n bm h
  end.
Definition get_only_child_without_siblings (nk : nodekey) (i : internal_node) (n : nibble)
    : outcome (option nodekey) :=
  bm ← generate_bitmaps i; only_child_loop nk i n bm 4.

(** node_type.rs:676-761 get_child_with_siblings_helper; siblings in push order. *)
Fixpoint siblings_loop (rd : nodekey -> option node) (nk : nodekey) (i : internal_node)
    (n : nibble) (only : bool) (bm : N * N) (hs : nat) (sibs : list smnode)
    : outcome (option nodekey * list smnode) :=
  match hs with
  | O => Panic
  | S h =>
      s ← build_sibling rd nk i (sibling_half_start n h) h bm;
      let sibs := sibs ++ [s] in
      rb ← range_bitmaps (child_half_start n h) h bm;
      if rb.1 =? 0 then Ok (None, sibs)
      else if only && has_only_child h rb.1 rb.2 then
        m ← nib_from_u8 (trailing_zeros rb.1);
        c ← unwrap (in_child i m);
        Ok (Some (gen_child nk (c_version c) m), sibs)
      else if negb only && has_child h rb.1 (N.shiftl 1 (nib_to_N n)) rb.2 then
        c ← unwrap (in_child i n);
        Ok (Some (gen_child nk (c_version c) n), sibs)
      else siblings_loop rd nk i n only bm h sibs
  end.
Definition get_child_with_siblings_helper (rd : nodekey -> option node) (nk : nodekey)
    (i : internal_node) (n : nibble) (only : bool) : outcome (option nodekey * list smnode) :=
  bm ← generate_bitmaps i; siblings_loop rd nk i n only bm 4 [].
(** node_type.rs:765-772 get_child_with_siblings *)
Definition get_child_with_siblings rd nk i n := get_child_with_siblings_helper rd nk i n false.
(** node_type.rs:780-787 get_only_child_with_siblings *)
Definition get_only_child_with_siblings rd nk i n := get_child_with_siblings_helper rd nk i n true.

End hashing.

(** node_type.rs:439-441 leaf_count, 443-447 node_type, 938-946 Node::node_type *)
Definition node_node_type (n : node) : outcome node_type :=
  match n with
  | Null => Panic
  | Leaf _ => Ok NTLeaf
  | Internal i => Ok (NTInternal (in_leaf_count i))
  end.
(** node_type.rs:949-955 Node::leaf_count *)
Definition node_leaf_count (n : node) : nat :=
  match n with Null => 0%nat | Leaf _ => 1%nat | Internal i => in_leaf_count i end.
(** node_type.rs:933-935 Node::is_leaf *)
Definition node_is_leaf (n : node) : bool := match n with Leaf _ => true | _ => false end.
