(** Model of src/tree.rs: put_value_sets (with and without proof), get_with_proof,
    get_range_proof, root hash queries.  batch_put_value_sets is in BatchTree.v, the
    exclusion-proof search in Exclusion.v. *)
From Coq Require Import Strings.String.
From Verif Require Export TreeCache ProofDef.
Local Open Scope N_scope.

(** tree.rs:1422-1429 PutResult *)
Inductive put_result : Type := Updated (nk : nodekey) (n : node) | Removed | NotChanged.

(** nibble_path.rs:52-60 (FromIterator) + bytes(): pack nibbles two per byte, an odd last nibble in
    the high half (NibblePath.v relates this to the push-based construction). *)
Fixpoint pack_nibbles (l : list nibble) : list byte :=
  match l with
  | [] => []
  | [a] => [byte_of_N (N.shiftl (nib_to_N a) 4)]
  | a :: b :: l' => byte_of_N (N.lor (N.shiftl (nib_to_N a) 4) (nib_to_N b)) :: pack_nibbles l'
  end.
(** NibblePath::pop (nibble_path.rs:134-148) on the nibble sequence *)
Definition path_pop (p : list nibble) : option (nibble * list nibble) :=
  match rev p with [] => None | n :: r => Some (n, rev r) end.

Section tree.
Context (H : list byte -> bytes32) (rd : reader).

(** tree.rs:982-1003 create_leaf_node; [full] is nibble_iter.get_nibble_path() *)
Definition create_leaf_node (nk : nodekey) (full : list nibble) (vh : vhash) (c : cache)
    : outcome (nodekey * node * cache) :=
  k ← unwrap (to_bytes32 (pack_nibbles full));
  let n := Leaf (LeafNode k vh) in
  c ← cache_put_node c nk n;
  Ok (nk, n, c).

(** tree.rs:614-620, 710-720, 750-760, 766-776, 866-880, 959-985: [if with_proof { Some(..) } else { None }] *)
Definition with_pf (with_proof : bool) (p : sm_proof) : option sm_proof :=
  if with_proof then Some p else None.

(** tree.rs:930-951 the bottom-up loop creating the chain of single-child internal nodes *)
Fixpoint chain_loop (count : nat) (v : version) (path : list nibble) (nk : nodekey)
    (next : internal_node) (c : cache) : outcome (nodekey * internal_node * cache) :=
  match count with
  | O => Ok (nk, next, c)
  | S count' =>
      '(nib, path') ← unwrap (path_pop path);
      h ← in_hash H next;
      i ← internal_new {[ nib := Child h v (NTInternal (in_leaf_count next)) ]};
      c ← cache_put_node c (v, path') (Internal i);
      chain_loop count' v path' (v, path') i c
  end.

(** tree.rs:823-979 insert_at_leaf_node.  The nibble iterator is the pair
    ([visited], [rem]) of visited and remaining nibbles of the inserted key. *)
Definition insert_at_leaf_node (nk : nodekey) (lf : leaf_node) (v : version)
    (visited rem : list nibble) (vh : option vhash) (c : cache) (wp : bool)
    : outcome (put_result * option sm_proof * cache) :=
  let leaf_path := key_nibbles (ln_key lf) in
  let skipped := lcp visited leaf_path in
  _ ← assert_ (skipped =? length visited)%nat;
  let leaf_rem := drop skipped leaf_path in
  let common := lcp rem leaf_rem in
  let visited' := visited ++ take common rem in
  let rem' := drop common rem in
  let leaf_rem' := drop common leaf_rem in
  match rem' with
  | [] =>
      _ ← assert_ (match leaf_rem' with [] => true | _ => false end);
      c ← cache_delete_node c nk true;
      let pf := with_pf wp (SMProof (Some lf) []) in
      match vh with
      | Some vh =>
          '(nk', n, c) ← create_leaf_node (nk_set_version nk v) (visited' ++ rem') vh c;
          Ok (Updated nk' n, pf, c)
      | None => Ok (Removed, pf, c)
      end
  | new_idx :: rem'' =>
      match vh with
      | Some vh =>
          c ← cache_delete_node c nk true;
          old_idx ← unwrap (head leaf_rem');
          _ ← assert_ (negb (bool_decide (old_idx = new_idx)));
          let ch := {[ old_idx := Child (leaf_hash H lf) v NTLeaf ]} : children in
          let nk1 := (v, visited') in
          c ← cache_put_node c (gen_child nk1 v old_idx) (Leaf lf);
          '(_, new_leaf, c) ← create_leaf_node (gen_child nk1 v new_idx) (visited' ++ rem') vh c;
          hn ← node_hash H new_leaf;
          let ch := <[ new_idx := Child hn v NTLeaf ]> ch in
          i ← internal_new ch;
          c ← cache_put_node c nk1 (Internal i);
          '(nk', i', c) ← chain_loop common v visited' nk1 i c;
          Ok (Updated nk' (Internal i'), with_pf wp (SMProof (Some lf) []), c)
      | None => Ok (NotChanged, with_pf wp (SMProof None []), c)
      end
  end.

(** tree.rs:653-818 insert_at_internal_node; [n] is the next nibble, [rec] is the recursive call
    insert_at on a child key, [full] the whole key. *)
Definition insert_at_internal_node (nk : nodekey) (i : internal_node) (v : version) (n : nibble)
    (full : list nibble) (vh : option vhash) (c : cache) (wp : bool)
    (rec : nodekey -> cache -> outcome (put_result * option sm_proof * cache))
    : outcome (put_result * option sm_proof * cache) :=
  '(res, pf, c) ←
    match in_child i n with
    | Some ci =>
        '(child_nk, sibs) ←
          (if wp then
             '(ck, sibs) ← get_child_with_siblings H (cache_node rd c) nk i n;
             ck ← unwrap ck;
             Ok (ck, sibs)
           else Ok (gen_child nk (c_version ci) n, []));
        '(res, pf, c) ← rec child_nk c;
        Ok (res, (fun p => SMProof (p_leaf p) (p_siblings p ++ rev sibs)) <$> pf, c)
    | None =>
        pf ←
          (if wp then
             '(ck, sibs) ← get_only_child_with_siblings H (cache_node rd c) nk i n;
             lf ← match ck with
                  | None => Ok None
                  | Some ck =>
                      nd ← unwrap (cache_node rd c ck);
                      match nd with
                      | Leaf l => Ok (Some l)
                      | _ => Panic
                      end
                  end;
             Ok (Some (SMProof lf (rev sibs)))
           else Ok None);
        match vh with
        | Some vh =>
            '(nk', nd, c) ← create_leaf_node (gen_child nk v n) full vh c;
            Ok (Updated nk' nd, pf, c)
        | None => Ok (NotChanged, with_pf wp (SMProof None []), c)
        end
    end;
  match res with
  | NotChanged => Ok (NotChanged, with_pf wp (SMProof None []), c)
  | _ =>
      ch ← match res with
           | Updated _ nd =>
               h ← node_hash H nd;
               t ← node_node_type nd;
               Ok (<[ n := Child h v t ]> (in_children i))
           | _ => Ok (delete n (in_children i))
           end;
      c ← cache_delete_node c nk false;
      match children_iter ch with
      | [] => Ok (Removed, pf, c)
      | (cn, ci) :: more =>
          if (match more with [] => true | _ => false end) && c_is_leaf ci then
            let child_key := gen_child nk (c_version ci) cn in
            child_node ← cache_get_node rd c child_key;
            c ← cache_delete_node c child_key true;
            let nk' := nk_set_version nk v in
            c ← cache_put_node c nk' child_node;
            Ok (Updated nk' child_node, pf, c)
          else
            i' ← internal_new ch;
            let nk' := nk_set_version nk v in
            c ← cache_put_node c nk' (Internal i');
            Ok (Updated nk' (Internal i'), pf, c)
      end
  end.

(** tree.rs:576-648 insert_at; structural on the remaining nibbles. *)
Fixpoint insert_at (rem : list nibble) (visited : list nibble) (nk : nodekey) (v : version)
    (vh : option vhash) (c : cache) (wp : bool) {struct rem}
    : outcome (put_result * option sm_proof * cache) :=
  match cache_node rd c nk with
  | Some (Internal i) =>
      match rem with
      | [] => Panic (* expect("Ran out of nibbles"), tree.rs:664 *)
      | n :: rem' =>
          insert_at_internal_node nk i v n (visited ++ rem) vh c wp
            (fun ck c => insert_at rem' (visited ++ [n]) ck v vh c wp)
      end
  | Some (Leaf lf) => insert_at_leaf_node nk lf v visited rem vh c wp
  | onull => (* Some Null or None: tree.rs:610-646 *)
      if negb (bool_decide (nk_path nk = [])) then Err (EOther "Null node exists for non-root node")
      else
        c ← (if (nk_version nk =? v) && (match onull with Some _ => true | None => false end)
             then cache_delete_node c nk false else Ok c);
        match vh with
        | Some vh =>
            '(nk', nd, c) ← create_leaf_node (nk_root v) (visited ++ rem) vh c;
            Ok (Updated nk' nd, with_pf wp (SMProof None []), c)
        | None => Ok (NotChanged, with_pf wp (SMProof None []), c)
        end
  end.

(** tree.rs:527-570 put *)
Definition put (k : key) (vh : option vhash) (v : version) (c : cache) (wp : bool)
    : outcome (option sm_proof * cache) :=
  '(res, pf, c) ← insert_at (key_nibbles k) [] (tc_root c) v vh c wp;
  match res with
  | Updated nk _ => Ok (pf, cache_set_root c nk)
  | NotChanged => Ok (pf, c)
  | Removed =>
      let c := cache_set_root c (nk_root v) in
      c ← cache_put_node c (nk_root v) Null;
      Ok (pf, c)
  end.

(** tree.rs:429-440 / 499-515: one value set *)
Fixpoint put_set (v : version) (kvs : list (key * option value)) (c : cache) : outcome cache :=
  match kvs with
  | [] => Ok c
  | (k, x) :: kvs' =>
      let c := cache_put_value c v k x in
      '(_, c) ← put k (value_hash H <$> x) v c false;
      put_set v kvs' c
  end.
Fixpoint put_set_with_proof (v : version) (kvs : list (key * option value)) (c : cache)
    : outcome (list sm_proof * cache) :=
  match kvs with
  | [] => Ok ([], c)
  | (k, x) :: kvs' =>
      let c := cache_put_value c v k x in
      '(pf, c) ← put k (value_hash H <$> x) v c true;
      pf ← unwrap pf;
      '(pfs, c) ← put_set_with_proof v kvs' c;
      Ok (pf :: pfs, c)
  end.
(** tree.rs:426-445 the loop over value sets; version = first_version + idx *)
Fixpoint put_sets (v : version) (sets : list (list (key * option value))) (c : cache) : outcome cache :=
  match sets with
  | [] => Ok c
  | s :: sets' =>
      c ← put_set v s c;
      c ← cache_freeze H rd c;
      put_sets (v + 1) sets' c
  end.
Fixpoint put_sets_with_proof (v : version) (sets : list (list (key * option value))) (c : cache)
    : outcome (list (list sm_proof) * cache) :=
  match sets with
  | [] => Ok ([], c)
  | s :: sets' =>
      '(pfs, c) ← put_set_with_proof v s c;
      c ← cache_freeze H rd c;
      '(rest, c) ← put_sets_with_proof (v + 1) sets' c;
      Ok (pfs :: rest, c)
  end.

(** tree.rs:420-446 put_value_sets *)
Definition put_value_sets (sets : list (list (key * option value))) (first : version)
    : outcome (list hash * tree_batch) :=
  c ← put_sets first sets (cache_new rd first);
  Ok (cache_into c).
(** tree.rs:344-356 put_value_set *)
Definition put_value_set (s : list (key * option value)) (v : version) : outcome (hash * tree_batch) :=
  '(roots, b) ← put_value_sets [s] v;
  match roots with [r] => Ok (r, b) | _ => Panic end.
(** tree.rs:484-525 put_value_sets_with_proof *)
Definition put_value_sets_with_proof (sets : list (list (key * option value))) (first : version)
    : outcome (list (hash * list sm_proof) * tree_batch) :=
  '(pfs, c) ← put_sets_with_proof first sets (cache_new rd first);
  let '(roots, b) := cache_into c in
  Ok (zip roots pfs, b).
(** tree.rs:361-377 put_value_set_with_proof *)
Definition put_value_set_with_proof (s : list (key * option value)) (v : version)
    : outcome (hash * list sm_proof * tree_batch) :=
  '(hps, b) ← put_value_sets_with_proof [s] v;
  match hps with [(r, p)] => Ok (r, p, b) | _ => Panic end.
(** tree.rs:450-479 append_value_set (feature "migration") *)
Definition append_value_set (s : list (key * option value)) (latest : version)
    : outcome (hash * tree_batch) :=
  c ← cache_new_overwrite rd latest;
  c ← put_set latest s c;
  c ← cache_freeze H rd c;
  let '(roots, b) := cache_into c in
  match roots with [r] => Ok (r, b) | _ => Err (EOther "appending a value set failed") end.

(** tree.rs:1006-1080 get_with_proof; structural on the remaining nibbles, [top] is nibble_depth == 0.
    The loop bound ROOT_NIBBLE_HEIGHT is never the first to trigger: each round but the last consumes
    one of the 64 nibbles. *)
Fixpoint get_with_proof_loop (k : key) (v : version) (rem : list nibble) (top : bool) (nk : nodekey)
    (sibs : list smnode) {struct rem} : outcome (option value * sm_proof) :=
  nd ← ok_or (if top then EMissingRoot v else EMissingNode) (rd_node rd nk);
  match nd with
  | Internal i =>
      match rem with
      | [] => Err (EOther "ran out of nibbles")
      | n :: rem' =>
          '(ck, s) ← get_only_child_with_siblings H (rd_node rd) nk i n;
          let sibs := sibs ++ s in
          match ck with
          | Some ck => get_with_proof_loop k v rem' false ck sibs
          | None => Ok (None, SMProof None (rev sibs))
          end
      end
  | Leaf l =>
      x ← (if decide (ln_key l = k) then x ← rd_get_value rd v (ln_key l); Ok (Some x) else Ok None);
      Ok (x, SMProof (Some l) (rev sibs))
  | Null => if top then Ok (None, SMProof None []) else Err (EOther "Non-root null node exists")
  end.
Definition get_with_proof (k : key) (v : version) : outcome (option value * sm_proof) :=
  get_with_proof_loop k v (key_nibbles k) true (nk_root v) [].

(** tree.rs:1361-1385 get_range_proof *)
Definition get_range_proof (k : key) (v : version) : outcome range_proof :=
  '(x, p) ← get_with_proof k v;
  _ ← ensure_ (match x with Some _ => true | None => false end) "rightmost_key_to_prove must exist.";
  Ok (RangeProof (rev (omap (fun sb => if negb (snd sb) then Some (fst sb) else None)
                            (zip (rev (p_siblings p)) (key_bits k))))).

(** tree.rs:1391-1393 get, 1356-1358 get_without_proof *)
Definition get (k : key) (v : version) : outcome (option value) := Ok (rd_value rd v k).
(** tree.rs:1400-1403 get_root_node_option *)
Definition get_root_node_option (v : version) : option node := rd_node rd (nk_root v).
(** tree.rs:1395-1398, 1405-1407 get_root_hash *)
Definition get_root_hash (v : version) : outcome hash :=
  n ← ok_or (EOther "Root node not found") (get_root_node_option v); node_hash H n.
(** tree.rs:1409-1413 get_root_hash_option *)
Definition get_root_hash_option (v : version) : outcome (option hash) :=
  match get_root_node_option v with
  | None => Ok None
  | Some n => h ← node_hash H n; Ok (Some h)
  end.
(** tree.rs:1416-1418 get_leaf_count *)
Definition get_leaf_count (v : version) : outcome nat :=
  n ← ok_or (EOther "Root node not found") (get_root_node_option v); Ok (node_leaf_count n).

End tree.
