(** Model of src/restore.rs: JellyfishMerkleRestore, writing to and reading from the MockTreeStore of Mock.v. *)
From Coq Require Import Strings.String.
From Verif Require Export Mock ProofDef.
From Verif Require Import MockSteps.
Local Open Scope nat_scope.

(** restore.rs:36-47 ChildInfo *)
Inductive child_info : Type := CIInternal (h : option hash) (leaf_count : nat) | CILeaf (l : leaf_node).
(** restore.rs:64-71 InternalInfo; the array of 16 options is a finite map from nibbles *)
Record internal_info : Type := IInfo { ii_key : nodekey; ii_children : gmap nibble child_info }.
(** restore.rs:75-80 new_empty, 82-85 set_child *)
Definition ii_empty (nk : nodekey) : internal_info := IInfo nk ∅.
Definition ii_set (i : internal_info) (n : nibble) (c : child_info) : internal_info :=
  IInfo (ii_key i) (<[ n := c ]> (ii_children i)).
(** [children.iter().rposition(|x| x.is_some())]: restore.rs:476-480, 511-515 *)
Definition rposition (ch : gmap nibble child_info) : option nibble :=
  last (filter (fun n => is_Some (ch !! n)) all_nibbles).

(** restore.rs:107-160 JellyfishMerkleRestore; [rs_fnodes], [rs_fvalues] are the two maps of frozen_nodes
    (writer.rs:25-28 NodeBatch); the store is the MockTreeStore itself. num_keys_received is unbounded. *)
Record rstate : Type := RS {
  rs_store : store; rs_version : version; rs_partial : list internal_info;
  rs_fnodes : gmap nodekey node; rs_fvalues : gmap (version * key) (option value);
  rs_prev : option leaf_node; rs_num : nat; rs_root : hash }.
Definition set_partial (rs : rstate) (ps : list internal_info) : rstate :=
  RS (rs_store rs) (rs_version rs) ps (rs_fnodes rs) (rs_fvalues rs) (rs_prev rs) (rs_num rs) (rs_root rs).
(** writer.rs:56-58 NodeBatch::insert_node *)
Definition freeze_node (rs : rstate) (nk : nodekey) (nd : node) : rstate :=
  RS (rs_store rs) (rs_version rs) (rs_partial rs) (<[ nk := nd ]> (rs_fnodes rs)) (rs_fvalues rs) (rs_prev rs) (rs_num rs) (rs_root rs).

(** restore.rs:197-212 new_overwrite *)
Definition new_overwrite (s : store) (v : version) (root : hash) : rstate :=
  RS s v [ii_empty (nk_root v)] ∅ ∅ None 0 root.

Section restore.
Context (H : list byte -> bytes32).

(** restore.rs:51-60 ChildInfo::into_child *)
Definition into_child (v : version) (c : child_info) : outcome child :=
  match c with
  | CIInternal h n => h ← unwrap h; Ok (Child h v (NTInternal n))
  | CILeaf l => Ok (Child (leaf_hash H l) v NTLeaf)
  end.
(** restore.rs:89-101 into_internal_node *)
Fixpoint into_children (v : version) (ch : gmap nibble child_info) (l : list nibble) : outcome (gmap nibble child) :=
  match l with
  | [] => Ok ∅
  | n :: l' =>
      match ch !! n with
      | None => into_children v ch l'
      | Some ci => c ← into_child v ci; r ← into_children v ch l'; Ok (<[ n := c ]> r)
      end
  end.
Definition into_internal_node (v : version) (i : internal_info) : outcome (nodekey * internal_node) :=
  ch ← into_children v (ii_children i) all_nibbles;
  nd ← internal_new ch;
  Ok (ii_key i, nd).

(** restore.rs:230-233 the ancestors of the rightmost leaf, upwards ([rp]: the path reversed);
    gen_parent_node_key (node_type.rs:90-97) panics on the root. *)
Fixpoint recover_up (s : store) (v : version) (rp : list nibble) : outcome (list nibble) :=
  match st_nodes s !! (v, rev rp) with
  | Some _ => match rp with [] => Panic | _ :: rp' => recover_up s v rp' end
  | None => Ok rp
  end.
(** restore.rs:248-258 one child position *)
Definition recover_child (nd : node) : outcome child_info :=
  match nd with
  | Internal i => h ← in_hash H i; Ok (CIInternal (Some h) (in_leaf_count i))
  | Leaf l => Ok (CILeaf l)
  | Null => Err (EOther "Null node should not appear in storage.")
  end.
Fixpoint recover_children (s : store) (version : version) (nk : nodekey) (l : list nibble) (i : internal_info) : outcome internal_info :=
  match l with
  | [] => Ok i
  | n :: l' =>
      match st_nodes s !! gen_child nk version n with
      | Some nd => c ← recover_child nd; recover_children s version nk l' (ii_set i n c)
      | None => recover_children s version nk l' i
      end
  end.
(** restore.rs:244-285 the loop, from the lowest partial node (path [rev rp]) up to the root;
    the result lists the root first (partial_nodes.reverse()). *)
Fixpoint recover_loop (s : store) (version kv : N) (rp : list nibble) (prev : option nibble) : outcome (list internal_info) :=
  let nk := (kv, rev rp) in
  i ← recover_children s version nk
        (match prev with Some n => filter (fun m => (nib_to_N m < nib_to_N n)%N) all_nibbles | None => all_nibbles end) (ii_empty nk);
  let i := match prev with Some n => ii_set i n (CIInternal None 0) | None => i end in
  match rp with
  | [] => Ok [i]
  | n :: rp' => ps ← recover_loop s version kv rp' (Some n); Ok (ps ++ [i])
  end.
(** restore.rs:216-286 recover_partial_nodes *)
Definition recover_partial_nodes (s : store) (version : version) (nk : nodekey) : outcome (list internal_info) :=
  _ ← ensure_ (negb (bool_decide (nk.2 = []))) "Root node would not be written until entire restoration process has completed";
  match rev nk.2 with
  | [] => Panic
  | _ :: rp => rp ← recover_up s nk.1 rp; recover_loop s version nk.1 rp None
  end.
(** restore.rs:163-195 new *)
Definition restore_new (s : store) (v : version) (root : hash) : outcome rstate :=
  match store_rightmost s with
  | Some (nk, l) => ps ← recover_partial_nodes s v nk; Ok (RS s v ps ∅ ∅ (Some l) 0 root)
  | None => Ok (RS s v [ii_empty (nk_root v)] ∅ ∅ None 0 root)
  end.

(** restore.rs:466-492 freeze_previous_leaf *)
Definition freeze_previous_leaf (rs : rstate) : outcome rstate :=
  if (rs_num rs =? 0)%nat then Ok rs
  else
    i ← unwrap (last (rs_partial rs));
    n ← unwrap (rposition (ii_children i));
    match ii_children i !! n with
    | Some (CILeaf l) => Ok (freeze_node rs (gen_child (ii_key i) (rs_version rs) n) (Leaf l))
    | _ => Panic
    end.
(** restore.rs:496-532 freeze_internal_nodes: one round of the loop.  [ps]: the stack without its top [top]. *)
Definition freeze_top (rs : rstate) (ps : list internal_info) (top : internal_info) : outcome rstate :=
  '(nk, nd) ← into_internal_node (rs_version rs) top;
  h ← in_hash H nd;
  let rs := freeze_node rs nk (Internal nd) in
  match last ps with
  | None => Ok (set_partial rs ps)
  | Some parent =>
      n ← unwrap (rposition (ii_children parent));
      match ii_children parent !! n with
      | Some (CIInternal oh c) =>
          _ ← assert_ (bool_decide (oh = None));
          _ ← assert_ (c =? 0)%nat;
          Ok (set_partial rs (take (length ps - 1) ps ++ [ii_set parent n (CIInternal (Some h) (in_leaf_count nd))]))
      | _ => Panic
      end
  end.
(** the loop: [count] rounds, count = partial_nodes.len() - num_remaining *)
Fixpoint freeze_internal (count : nat) (rs : rstate) : outcome rstate :=
  match count with
  | O => Ok rs
  | S count' =>
      top ← unwrap (last (rs_partial rs));
      rs ← freeze_top rs (take (length (rs_partial rs) - 1) (rs_partial rs)) top;
      freeze_internal count' rs
  end.
Definition freeze_internal_nodes (rs : rstate) (num_remaining : nat) : outcome rstate :=
  freeze_internal (length (rs_partial rs) - num_remaining) rs.
(** restore.rs:459-462 freeze *)
Definition rfreeze (rs : rstate) (num_remaining : nat) : outcome rstate :=
  rs ← freeze_previous_leaf rs; freeze_internal_nodes rs num_remaining.

(** restore.rs:404-418 the chain of internal nodes with a single unknown internal child; [vis]: the nibbles
    visited, [rem]: the remaining ones *)
Fixpoint chain_loop (v : version) (count : nat) (vis rem : list nibble) : outcome (list internal_info * list nibble) :=
  match count with
  | O => Ok ([], vis)
  | S count' =>
      match rem with
      | [] => Panic
      | n :: rem' =>
          '(ps, vis') ← chain_loop v count' (vis ++ [n]) rem';
          Ok (ii_set (ii_empty (v, vis)) n (CIInternal None 0) :: ps, vis')
      end
  end.
(** [partial_nodes[i].set_child(n, c)] *)
Definition set_child_at (ps : list internal_info) (i : nat) (n : nibble) (c : child_info) : outcome (list internal_info) :=
  x ← unwrap (ps !! i); Ok (<[ i := ii_set x n c ]> ps).
(** restore.rs:379-456 insert_at_leaf *)
Definition insert_at_leaf (rs : rstate) (n : nibble) (existing : leaf_node) (k : key) (vh : vhash)
    (vis rem : list nibble) : outcome rstate :=
  let num := length (rs_partial rs) in
  ps ← set_child_at (rs_partial rs) (num - 1) n (CIInternal None 0);
  let c := common_prefix_nibbles_len (ln_key existing) k in
  '(chain, vis) ← chain_loop (rs_version rs) (c - num) vis rem;
  e ← get_nibble (ln_key existing) c;
  let bottom := ii_set (ii_empty (rs_version rs, vis)) e (CILeaf existing) in
  let rs := set_partial rs (ps ++ chain ++ [bottom]) in
  rs ← rfreeze rs (length (rs_partial rs));
  m ← get_nibble k c;
  _ ← assert_ (nib_ltb e m);
  ps ← set_child_at (rs_partial rs) (length (rs_partial rs) - 1) m (CILeaf (LeafNode k vh));
  Ok (set_partial rs ps).
(** restore.rs:324-374 add_one: the loop over the nibbles; [vis] the nibbles visited so far *)
Fixpoint add_loop (rs : rstate) (k : key) (vh : vhash) (vis rem : list nibble) : outcome rstate :=
  match rem with
  | [] => Ok rs
  | n :: rem' =>
      i ← unwrap (rs_partial rs !! length vis);
      match ii_children i !! n with
      | Some (CIInternal _ _) => add_loop rs k vh (vis ++ [n]) rem'
      | Some (CILeaf existing) =>
          _ ← assert_ (length vis =? length (rs_partial rs) - 1)%nat;
          insert_at_leaf rs n existing k vh (vis ++ [n]) rem'
      | None =>
          rs ← rfreeze rs (length vis + 1);
          ps ← set_child_at (rs_partial rs) (length vis) n (CILeaf (LeafNode k vh));
          Ok (set_partial rs ps)
      end
  end.
Definition add_one (rs : rstate) (k : key) (vh : vhash) : outcome rstate := add_loop rs k vh [] (key_nibbles k).

(** restore.rs:616-647 compute_left_sibling_impl on a slice of 2^h children *)
Fixpoint left_sibling_impl (h : nat) (l : list (option child_info)) : outcome (hash * bool) :=
  match h with
  | O =>
      match l with
      | [Some (CIInternal oh _)] => x ← unwrap oh; Ok (x, false)
      | [Some (CILeaf lf)] => Ok (leaf_hash H lf, true)
      | [None] => Ok (SPARSE_MERKLE_PLACEHOLDER_HASH, true)
      | _ => Panic
      end
  | S h' =>
      '(lh, ll) ← left_sibling_impl h' (take (2 ^ h') l);
      '(rh, rl) ← left_sibling_impl h' (drop (2 ^ h') l);
      Ok (if bool_decide (lh = SPARSE_MERKLE_PLACEHOLDER_HASH) && rl then (rh, true)
          else if ll && bool_decide (rh = SPARSE_MERKLE_PLACEHOLDER_HASH) then (lh, true)
          else (internal_hash H lh rh, false))
  end.
(** restore.rs:608-613 compute_left_sibling *)
Definition compute_left_sibling (i : internal_info) (n : nibble) (h : nat) : outcome hash :=
  _ ← assert_ (h <? 4)%nat;
  let start := sibling_half_start n h in
  r ← left_sibling_impl h (map (fun j => ii_children i !! nib_of_N (start + N.of_nat j)) (seq 0 (2 ^ h)));
  Ok r.1.
(** restore.rs:548-571 the left siblings (those of the set bits), last bit first.  [bits]: (index, bit) pairs. *)
Fixpoint left_siblings (ps : list internal_info) (k : key) (bits : list (nat * bool)) (acc : list hash) : outcome (list hash) :=
  match bits with
  | [] => Ok acc
  | (i, false) :: bits' => left_siblings ps k bits' acc
  | (i, true) :: bits' =>
      s ← (if (length ps * 4 <=? i)%nat then Ok SPARSE_MERKLE_PLACEHOLDER_HASH
           else
             p ← unwrap (ps !! (i / 4)%nat);
             n ← get_nibble k (i / 4);
             compute_left_sibling p n (3 - i mod 4));
      left_siblings ps k bits' (s :: acc)
  end.
(** restore.rs:579-593 dropping the extra placeholders; [ls] deepest first *)
Fixpoint trim (bits : list bool) (ls : list hash) (visited right : nat) : outcome (list hash) :=
  match bits with
  | [] => Ok ls
  | true :: bits' =>
      match ls with
      | [] => Panic
      | l :: ls' => if decide (l = SPARSE_MERKLE_PLACEHOLDER_HASH) then trim bits' ls' visited right else Ok ls
      end
  | false :: bits' => if (right <? visited)%nat then trim bits' ls (visited - 1) right else Ok ls
  end.
(** restore.rs:538-605 verify *)
Definition rverify (ovf : bool) (rs : rstate) (p : range_proof) : outcome unit :=
  l ← unwrap (rs_prev rs);
  let k := ln_key l in
  let bits := key_bits k in
  ls ← left_siblings (rs_partial rs) k (zip (seq 0 256) bits) [];
  let visited := length (filter (fun b => b = false) bits) in
  _ ← ensure_ (length (right_siblings p) <=? visited)%nat "Too many right siblings in the proof.";
  ls ← trim (rev bits) ls visited (length (right_siblings p));
  range_verify H ovf p (rs_root rs) l ls.

(** restore.rs:298-311 one (key, value) of a chunk *)
Definition push_key (rs : rstate) (k : key) (x : value) : outcome rstate :=
  let vh := value_hash H x in
  let rs := RS (rs_store rs) (rs_version rs) (rs_partial rs) (rs_fnodes rs)
               (<[ (rs_version rs, k) := Some x ]> (rs_fvalues rs)) (rs_prev rs) (rs_num rs) (rs_root rs) in
  rs ← add_one rs k vh;
  Ok (RS (rs_store rs) (rs_version rs) (rs_partial rs) (rs_fnodes rs) (rs_fvalues rs)
         (Some (LeafNode k vh)) (rs_num rs + 1) (rs_root rs)).
(** A call that returns: the new state of the object (kept by the caller also when the call fails) and the error. *)
Notation called := (rstate * option error)%type.
Definition in_order (rs : rstate) (k : key) : bool :=
  match rs_prev rs with None => true | Some l => key_ltb (ln_key l) k end.
Fixpoint push_chunk (rs : rstate) (chunk : list (key * value)) : outcome called :=
  match chunk with
  | [] => Ok (rs, None)
  | (k, x) :: chunk' =>
      if in_order rs k then rs ← push_key rs k x; push_chunk rs chunk'
      else Ok (rs, Some (EOther "Account keys must come in increasing order."))
  end.
(** restore.rs:316-318 writing the frozen nodes, which are forgotten only when the write succeeds; a write that fails may have
    written a part of them (MockSteps.v) *)
Definition flush (rs : rstate) : outcome called :=
  match write_node_batch_io (rs_store rs) (rs_fnodes rs) (rs_fvalues rs) with
  | (s, Ok _) => Ok (RS s (rs_version rs) (rs_partial rs) ∅ ∅ (rs_prev rs) (rs_num rs) (rs_root rs), None)
  | (s, Err e) => Ok (RS s (rs_version rs) (rs_partial rs) (rs_fnodes rs) (rs_fvalues rs) (rs_prev rs) (rs_num rs) (rs_root rs), Some e)
  | (_, Panic) => Panic
  end.
(** restore.rs:291-321 add_chunk_impl, 695-701 add_chunk.  [ovf]: see ProofDef.v *)
Definition add_chunk (ovf : bool) (rs : rstate) (chunk : list (key * value)) (p : range_proof) : outcome called :=
  match chunk with
  | [] => Ok (rs, Some (EOther "Should not add empty chunks."))
  | _ =>
      '(rs, e) ← push_chunk rs chunk;
      match e with
      | Some e => Ok (rs, Some e)
      | None =>
          match rverify ovf rs p with
          | Ok _ => flush rs
          | Err e => Ok (rs, Some e)
          | Panic => Panic
          end
      end
  end.
(** restore.rs:651-678 finish_impl, 703-709 finish, finish_box.  The object is consumed; the store remains. *)
Definition finish (rs : rstate) : outcome store :=
  let single :=
    match rs_partial rs with
    | [i] =>
        match filter (fun n => is_Some (ii_children i !! n)) all_nibbles with
        | [n] => match ii_children i !! n with Some (CILeaf l) => Some l | _ => None end
        | _ => None
        end
    | _ => None
    end in
  match single with
  | Some l =>
      _ ← assert_ (bool_decide (rs_fnodes rs = ∅) && bool_decide (rs_fvalues rs = ∅));
      write_node_batch (rs_store rs) {[ nk_root (rs_version rs) := Leaf l ]} ∅
  | None =>
      rs ← rfreeze rs 0;
      write_node_batch (rs_store rs) (rs_fnodes rs) (rs_fvalues rs)
  end.
End restore.
