(** Model of batch_put_value_sets: src/tree.rs:58-339. *)
From Coq Require Import Strings.String.
From Verif Require Export Tree NibbleRange SpecOrder.
Local Open Scope N_scope.

(** HashMap<NibblePath, [u8; 32]> *)
Notation hash_cache := (gmap (list nibble) bytes32) (only parsing).
(** [&kvs[left..=right]]: panics when left > right + 1 or right >= len *)
Definition slice_incl (kvs : list (key * vhash)) (left right : nat) : outcome (list (key * vhash)) :=
  _ ← assert_ ((left <=? right + 1) && (right <? length kvs))%nat;
  Ok (take (right + 1 - left) (drop left kvs)).

Section batch.
Context (H : list byte -> bytes32) (rd : reader).

(** tree.rs:58-71 get_hash *)
Definition get_hash (nk : nodekey) (n : node) (hc : option hash_cache) : outcome hash :=
  match hc with
  | Some t => match t !! nk_path nk with Some h => Ok h | None => Panic end
  | None => node_hash H n
  end.

(** The [for (left, right) in NibbleRangeIterator::new(kvs, depth)] loops of tree.rs:140-181, 248-281 and
    313-330: read the nibble, call [body] on the sub-slice, insert the resulting child.  [flag] is
    isolated_existing_leaf (unused by the other two loops).  Simplification: the ranges are computed before the
    loop; they depend on [kvs] only. *)
Fixpoint batch_loop (v : version) (kvs : list (key * vhash)) (depth : nat) (hc : option hash_cache)
    (body : nibble -> list (key * vhash) -> bool -> cache -> outcome (nodekey * node * bool * cache))
    (ranges : list (nat * nat)) (ch : children) (flag : bool) (c : cache) : outcome (children * bool * cache) :=
  match ranges with
  | [] => Ok (ch, flag, c)
  | (lft, rgt) :: ranges' =>
      kv ← unwrap (kvs !! lft);
      n ← get_nibble kv.1 depth;
      sub ← slice_incl kvs lft rgt;
      '(nk, nd, flag, c) ← body n sub flag c;
      h ← get_hash nk nd hc;
      t ← node_node_type nd;
      batch_loop v kvs depth hc body ranges' (<[ n := Child h v t ]> ch) flag c
  end.

(** tree.rs:299-339 batch_create_subtree.  [rem] = 64 - depth; at depth 64 the iterator's constructor panics. *)
Fixpoint batch_create_subtree (rem : nat) (nk : nodekey) (v : version) (kvs : list (key * vhash)) (depth : nat)
    (hc : option hash_cache) (c : cache) {struct rem} : outcome (nodekey * node * cache) :=
  match kvs with
  | [(k, vh)] =>
      let nd := Leaf (LeafNode k vh) in
      c ← cache_put_node c nk nd;
      Ok (nk, nd, c)
  | _ =>
      match rem with
      | O => Panic
      | S rem' =>
          ranges ← nri_ranges kvs depth;
          '(ch, _, c) ← batch_loop v kvs depth hc
            (fun n sub flag c =>
               '(cnk, cnd, c) ← batch_create_subtree rem' (gen_child nk v n) v sub (S depth) hc c;
               Ok (cnk, cnd, flag, c))
            ranges ∅ false c;
          i ← internal_new ch;
          c ← cache_put_node c nk (Internal i);
          Ok (nk, Internal i, c)
      end
  end.

(** tree.rs:228-297 batch_create_subtree_with_existing_leaf *)
Fixpoint batch_create_with_leaf (rem : nat) (nk : nodekey) (v : version) (lf : leaf_node) (kvs : list (key * vhash))
    (depth : nat) (hc : option hash_cache) (c : cache) {struct rem} : outcome (nodekey * node * cache) :=
  let diverge :=
    match rem with
    | O => Panic (* get_nibble(64): index out of bounds *)
    | S rem' =>
        bucket ← get_nibble (ln_key lf) depth;
        ranges ← nri_ranges kvs depth;
        '(ch, isolated, c) ← batch_loop v kvs depth hc
          (fun n sub flag c =>
             if bool_decide (bucket = n) then
               '(cnk, cnd, c) ← batch_create_with_leaf rem' (gen_child nk v n) v lf sub (S depth) hc c;
               Ok (cnk, cnd, false, c)
             else
               '(cnk, cnd, c) ← batch_create_subtree rem' (gen_child nk v n) v sub (S depth) hc c;
               Ok (cnk, cnd, flag, c))
          ranges ∅ true c;
        '(ch, c) ←
          (if (isolated : bool) then
             c ← cache_put_node c (gen_child nk v bucket) (Leaf lf);
             Ok (<[ bucket := Child (leaf_hash H lf) v NTLeaf ]> ch, c)
           else Ok (ch, c));
        i ← internal_new ch;
        c ← cache_put_node c nk (Internal i);
        Ok (nk, Internal i, c)
    end in
  match kvs with
  | [(k, vh)] =>
      if decide (k = ln_key lf) then
        let nd := Leaf (LeafNode (ln_key lf) vh) in
        c ← cache_put_node c nk nd;
        Ok (nk, nd, c)
      else diverge
  | _ => diverge
  end.

(** tree.rs:122-225 batch_insert_at *)
Fixpoint batch_insert_at (rem : nat) (nk : nodekey) (v : version) (kvs : list (key * vhash)) (depth : nat)
    (hc : option hash_cache) (c : cache) {struct rem} : outcome (nodekey * node * cache) :=
  _ ← assert_ (match kvs with [] => false | _ => true end);
  nd ← cache_get_node rd c nk;
  match nd with
  | Internal i =>
      match rem with
      | O => Panic
      | S rem' =>
          c ← cache_delete_node c nk false;
          ranges ← nri_ranges kvs depth;
          '(ch, _, c) ← batch_loop v kvs depth hc
            (fun n sub flag c =>
               '(cnk, cnd, c) ←
                 match in_child i n with
                 | Some child => batch_insert_at rem' (gen_child nk (c_version child) n) v sub (S depth) hc c
                 | None => batch_create_subtree rem' (gen_child nk v n) v sub (S depth) hc c
                 end;
               Ok (cnk, cnd, flag, c))
            ranges (in_children i) false c;
          i' ← internal_new ch;
          let nk' := nk_set_version nk v in
          c ← cache_put_node c nk' (Internal i');
          Ok (nk', Internal i', c)
      end
  | Leaf lf =>
      c ← cache_delete_node c nk true;
      batch_create_with_leaf rem (nk_set_version nk v) v lf kvs depth hc c
  | Null =>
      if negb (bool_decide (nk_path nk = [])) then Err (EOther "Null node exists for non-root node")
      else
        c ← (if nk_version nk =? v then cache_delete_node c nk false else Ok c);
        batch_create_subtree rem (nk_root v) v kvs depth hc c
  end.

(** tree.rs:92-101: collecting into a BTreeMap sorts by key and keeps the last value of a repeated key; the
    values are put into the cache in key order. *)
Definition btree_collect (s : list (key * value)) : list (key * value) :=
  entries (fold_left (fun m kx => <[ kx.1 := kx.2 ]> m) s (∅ : gmap key value)).
Definition put_values (v : version) (l : list (key * value)) (c : cache) : cache :=
  fold_left (fun c kx => cache_put_value c v kx.1 (Some kx.2)) l c.
(** tree.rs:84-113 one value set *)
Definition batch_set (v : version) (s : list (key * value)) (hc : option hash_cache) (c : cache) : outcome cache :=
  _ ← assert_ (match s with [] => false | _ => true end);
  let l := btree_collect s in
  let c := put_values v l c in
  '(nk, _, c) ← batch_insert_at 64 (tc_root c) v (map (fun kx => (kx.1, value_hash H kx.2)) l) 0 hc c;
  cache_freeze H rd (cache_set_root c nk).
Fixpoint batch_sets (v : version) (sets : list (list (key * value) * option hash_cache)) (c : cache) : outcome cache :=
  match sets with
  | [] => Ok c
  | (s, hc) :: sets' => c ← batch_set v s hc c; batch_sets (v + 1) sets' c
  end.
(** tree.rs:74-120 batch_put_value_sets.  zip_eq panics when the numbers of value sets and of hash maps differ
    (in Rust after the common prefix has been processed, here before: the call fails in both). *)
Definition batch_put_value_sets (sets : list (list (key * value))) (node_hashes : option (list hash_cache))
    (first : version) : outcome (list hash * tree_batch) :=
  let hcs := match node_hashes with
             | Some hs => map Some hs
             | None => map (fun _ => None) sets
             end in
  _ ← assert_ (length sets =? length hcs)%nat;
  c ← batch_sets first (zip sets hcs) (cache_new rd first);
  Ok (cache_into c).
End batch.
