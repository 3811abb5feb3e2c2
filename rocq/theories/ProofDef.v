(** Model of src/types/proof/definition.rs. *)
From Coq Require Import Strings.String.
From Verif Require Export NodeType.
Local Open Scope N_scope.

(** definition.rs:20-42 SparseMerkleProof (the hasher is a phantom parameter) *)
Record sm_proof : Type := SMProof { p_leaf : option leaf_node; p_siblings : list smnode }.
(** definition.rs:597-602 SparseMerkleRangeProof *)
Record range_proof : Type := RangeProof { right_siblings : list smnode }.

(** ** usize arithmetic (64 bit).  [ovf = true]: overflow checks on (debug profile, or
    overflow-checks = true): panic.  [ovf = false]: release profile: wrap around. *)
Definition usize_mod : N := 18446744073709551616. (* 2^64 *)
Definition usub (ovf : bool) (a b : N) : outcome N :=
  if b <=? a then Ok (a - b) else if ovf then Panic else Ok ((a + usize_mod) - b).
Definition uadd (ovf : bool) (a b : N) : outcome N :=
  if a + b <? usize_mod then Ok (a + b) else if ovf then Panic else Ok (a + b - usize_mod).
(** Vec allocation of [n] SparseMerkleNode (65 bytes each): capacity overflow panics. *)
Definition vec_capacity_ok (n : N) : bool := n * 65 <=? 9223372036854775807.

(** [iter_bits().rev().skip(n)]: definition.rs:181-187, 409-414, 491-500, 668-674 *)
Definition rev_bits_skip (k : key) (n : N) : list bool :=
  if n <=? 256 then drop (N.to_nat n) (rev (key_bits k)) else [].

Section proofs.
Context (H : list byte -> bytes32).

(** The fold step shared by definition.rs:188-194, 415-430, 459-476, 501-507 *)
Definition fold_step (h : hash) (sb : smnode * bool) : hash :=
  if sb.2 then internal_hash H (sm_hash H sb.1) h else internal_hash H h (sm_hash H sb.1).
Definition fold_path (h : hash) (sibs : list smnode) (bits : list bool) : hash :=
  fold_left fold_step (zip sibs bits) h.
(** map_or(SPARSE_MERKLE_PLACEHOLDER_HASH, leaf.hash) : definition.rs:174-177, 486-489 *)
Definition opt_leaf_hash (l : option leaf_node) : hash :=
  match l with None => SPARSE_MERKLE_PLACEHOLDER_HASH | Some l => leaf_hash H l end.

(** definition.rs:125-212 verify *)
Definition verify (p : sm_proof) (expected_root : hash) (k : key) (v : option value) : outcome unit :=
  _ ← ensure_ (length (p_siblings p) <=? 256)%nat "more than 256 siblings";
  _ ← match v, p_leaf p with
      | Some x, Some l =>
          _ ← ensure_ (bool_decide (k = ln_key l)) "Keys do not match";
          ensure_ (bool_decide (value_hash H x = ln_vh l)) "Value hashes do not match"
      | Some _, None => Err (EOther "Expected inclusion proof")
      | None, Some l =>
          _ ← ensure_ (negb (bool_decide (k = ln_key l))) "key exists in proof";
          ensure_ (length (p_siblings p) <=? common_prefix_bits_len k (ln_key l))%nat
                  "not a valid non-inclusion proof"
      | None, None => Ok tt
      end;
  n ← usub true 256 (N.of_nat (length (p_siblings p)));
  let actual := fold_path (opt_leaf_hash (p_leaf p)) (p_siblings p) (rev_bits_skip k n) in
  ensure_ (bool_decide (actual = expected_root)) "Root hashes do not match".
(** definition.rs:102-109 verify_existence *)
Definition verify_existence (p : sm_proof) (root : hash) (k : key) (v : value) : outcome unit :=
  verify p root k (Some v).
(** definition.rs:113-119 verify_nonexistence *)
Definition verify_nonexistence (p : sm_proof) (root : hash) (k : key) : outcome unit :=
  verify p root k None.

(** definition.rs:485-511 root_hash *)
Definition root_hash (ovf : bool) (p : sm_proof) : outcome hash :=
  l ← unwrap (p_leaf p);
  n ← usub ovf 256 (N.of_nat (length (p_siblings p)));
  Ok (fold_path (opt_leaf_hash (p_leaf p)) (p_siblings p) (rev_bits_skip (ln_key l) n)).

(** definition.rs:259-261 [while new.next() == old.next()] counting.  If both iterators are exhausted the Rust
    loop does not terminate; modelled as Panic (unreachable for different keys). *)
Fixpoint count_eq_bits (x y : list bool) : outcome N :=
  match x, y with
  | [], [] => Panic
  | a :: x', b :: y' => if Bool.eqb a b then (c ← count_eq_bits x' y'; Ok (c + 1)) else Ok 0
  | _, _ => Ok 0
  end.
(** Vec::resize(n, SMNull) *)
Definition vec_resize (n : N) (l : list smnode) : outcome (list smnode) :=
  if vec_capacity_ok n then Ok (resize (N.to_nat n) SMNull l) else Panic.

(** definition.rs:225-301 compute_new_merkle_path_on_split *)
Definition compute_new_merkle_path_on_split (ovf : bool) (p : sm_proof) (lf : leaf_node)
    (k : key) (v : value) : outcome sm_proof :=
  let new_n := key_nibbles k in
  let old_n := key_nibbles (ln_key lf) in
  let c := lcp new_n old_n in
  let num_siblings := N.of_nat (length (p_siblings p)) in
  d ← usub ovf (4 * (N.of_nat c + 1)) num_siblings;
  let default_leaves := (d / 4) * 4 in
  e ← count_eq_bits (flat_map nib_bits (drop c new_n)) (flat_map nib_bits (drop c old_n));
  let prev_root := (4 - num_siblings mod 4) mod 4 in
  s1 ← uadd ovf prev_root default_leaves;
  s2 ← uadd ovf s1 e;
  num_default ← usub ovf s2 4;
  m ← uadd ovf num_default 1;
  cap ← uadd ovf m num_siblings;
  _ ← assert_ (vec_capacity_ok cap);
  sibs ← vec_resize m [SMLeaf lf];
  Ok (SMProof (Some (LeafNode k (value_hash H v))) (sibs ++ p_siblings p)).

(** skipping leading Null siblings: definition.rs:385-391, 440-445 *)
Fixpoint drop_nulls (l : list smnode) : list smnode :=
  match l with SMNull :: l' => drop_nulls l' | _ => l end.

(** definition.rs:305-483 check_compute_new_root *)
Definition check_compute_new_root (ovf : bool) (p : sm_proof) (old_root : hash) (k : key)
    (v : option value) : outcome hash :=
  match v with
  | Some x =>
      match p_leaf p with
      | Some lf =>
          r ← root_hash ovf p;
          _ ← ensure_ (bool_decide (r = old_root)) "old root";
          if decide (k = ln_key lf) then
            root_hash ovf (SMProof (Some (LeafNode k (value_hash H x))) (p_siblings p))
          else
            p' ← compute_new_merkle_path_on_split ovf p lf k x;
            root_hash ovf p'
      | None =>
          _ ← (match verify_nonexistence p old_root k with
               | Ok _ => Ok tt
               | Err _ => Err (EOther "nonexistence")
               | Panic => Panic
               end);
          root_hash ovf (SMProof (Some (LeafNode k (value_hash H x))) (p_siblings p))
      end
  | None =>
      match p_leaf p with
      | Some lf =>
          r ← root_hash ovf p;
          _ ← ensure_ (bool_decide (r = old_root)) "old root";
          _ ← ensure_ (bool_decide (k = ln_key lf)) "Key to remove doesn't match";
          let rest := drop_nulls (p_siblings p) in
          match rest with
          | SMInternal _ _ :: _ =>
              n ← usub ovf 256 (N.of_nat (length rest));
              Ok (fold_path SPARSE_MERKLE_PLACEHOLDER_HASH rest (rev_bits_skip k n))
          | SMLeaf l' :: rest' =>
              let rest'' := drop_nulls rest' in
              n ← usub ovf 256 (N.of_nat (length rest''));
              Ok (fold_path (leaf_hash H l') rest'' (rev_bits_skip k n))
          | _ => Ok SPARSE_MERKLE_PLACEHOLDER_HASH
          end
      | None => Ok old_root
      end
  end.

(** definition.rs:553-562 the loop of verify_update *)
Fixpoint update_loop (ovf : bool) (cur : hash) (ps : list sm_proof) (us : list (key * option value))
    : outcome hash :=
  match ps, us with
  | p :: ps', (k, v) :: us' =>
      cur' ← check_compute_new_root ovf p cur k v;
      update_loop ovf cur' ps' us'
  | _, _ => Ok cur
  end.
(** definition.rs:536-570 UpdateMerkleProof::verify_update *)
Definition verify_update (ovf : bool) (ps : list sm_proof) (old_root new_root : hash)
    (us : list (key * option value)) : outcome unit :=
  _ ← ensure_ (length us =? length ps)%nat "Mismatched number of updates and proofs";
  cur ← update_loop ovf old_root ps us;
  ensure_ (bool_decide (cur = new_root)) "Root hashes do not match".

(** definition.rs:664-685 the loop of SparseMerkleRangeProof::verify *)
Fixpoint range_loop (bits : list bool) (ls : list hash) (rs : list smnode) (cur : hash) : outcome hash :=
  match bits with
  | [] => Ok cur
  | true :: bits' =>
      match ls with
      | [] => Err (EOther "Missing left sibling.")
      | l :: ls' => range_loop bits' ls' rs (internal_hash H l cur)
      end
  | false :: bits' =>
      match rs with
      | [] => Err (EOther "Missing right sibling.")
      | r :: rs' => range_loop bits' ls rs' (internal_hash H cur (sm_hash H r))
      end
  end.
(** definition.rs:650-695 SparseMerkleRangeProof::verify *)
Definition range_verify (ovf : bool) (p : range_proof) (expected_root : hash) (lf : leaf_node)
    (left_siblings : list hash) : outcome unit :=
  n ← usub ovf 256 (N.of_nat (length left_siblings + length (right_siblings p)));
  cur ← range_loop (rev_bits_skip (ln_key lf) n) left_siblings (right_siblings p) (leaf_hash H lf);
  ensure_ (bool_decide (cur = expected_root)) "Root hashes do not match".

End proofs.
