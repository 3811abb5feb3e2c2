(** Queries and commits as programs that ask their store one request at a time (reader.rs:10-42).  Each request is answered
    on its own, possibly by an error, and the answers may change from one request to the next.  The definitions follow the
    functions of Tree.v, BatchTree.v, Exclusion.v and Iterator.v line by line, with a request wherever those apply the reader;
    [RequestFacts.v] proves that with the answers of one fixed reader they are those functions. *)
From Coq Require Import Strings.String.
From Verif Require Export Tree BatchTree Exclusion Iterator.
Local Open Scope N_scope.

(** A program that asks for nodes (reader.rs:18 get_node_option) and values (reader.rs:33-37 get_value_option); the answer is
    Ok of an option, or an error.  [Panic] as an answer stands for a reader that panics. *)
Inductive prog (A : Type) : Type :=
| Done (o : outcome A)
| AskNode (nk : nodekey) (kont : outcome (option node) -> prog A)
| AskValue (w : version) (k : key) (kont : outcome (option value) -> prog A).
Arguments Done {A} o.
Arguments AskNode {A} nk kont.
Arguments AskValue {A} w k kont.
Fixpoint pbind {A B} (f : A -> prog B) (p : prog A) : prog B :=
  match p with
  | Done (Ok a) => f a
  | Done (Err e) => Done (Err e)
  | Done Panic => Done Panic
  | AskNode nk k => AskNode nk (fun r => pbind f (k r))
  | AskValue w x k => AskValue w x (fun r => pbind f (k r))
  end.
Global Instance prog_bind : MBind prog := @pbind.
(** all requests answered by one reader *)
Fixpoint runp (rd : reader) {A} (p : prog A) : outcome A :=
  match p with
  | Done o => o
  | AskNode nk k => runp rd (k (Ok (rd_node rd nk)))
  | AskValue w x k => runp rd (k (Ok (rd_value rd w x)))
  end.
(** the outcomes possible when each request may get any answer allowed for it, whatever was answered before *)
Inductive may (an : nodekey -> outcome (option node) -> Prop) (av : version -> key -> outcome (option value) -> Prop) {A} : prog A -> outcome A -> Prop :=
| may_done o : may an av (Done o) o
| may_node nk k r o : an nk r -> may an av (k r) o -> may an av (AskNode nk k) o
| may_value w x k r o : av w x r -> may an av (k r) o -> may an av (AskValue w x k) o.

(** reader.rs:12-15 get_node followed by [?]; the error of a missing node is [e], an error of the store goes through [me] *)
Definition req_node_e (e : error) (me : error -> error) (nk : nodekey) : prog node :=
  AskNode nk (fun r => Done (match r with Ok (Some n) => Ok n | Ok None => Err e | Err e' => Err (me e') | Panic => Panic end)).
Definition req_node (nk : nodekey) : prog node := req_node_e EMissingNode (fun e => e) nk.
(** reader.rs:18 get_node_option followed by [?] *)
Definition req_node_option (nk : nodekey) : prog (option node) := AskNode nk Done.
(** get_node followed by unwrap/expect *)
Definition req_node_unwrap (nk : nodekey) : prog node :=
  AskNode nk (fun r => Done (match r with Ok (Some n) => Ok n | _ => Panic end)).
(** reader.rs:22-29 get_value, 33-37 get_value_option, followed by [?] *)
Definition req_value (w : version) (k : key) : prog value :=
  AskValue w k (fun r => Done (match r with Ok (Some x) => Ok x | Ok None => Err EMissingValue | Err e => Err e | Panic => Panic end)).
Definition req_value_option (w : version) (k : key) : prog (option value) := AskValue w k Done.

Section reads.
Context (H : list byte -> bytes32).

(** node_type.rs:504-564 build_sibling; [rn] is the get_node of the TreeReader passed in, with its unwrap (533-541) *)
Definition build_sibling_p (rn : nodekey -> prog node) (nk : nodekey) (i : internal_node) (start : N) (h : nat) (bm : N * N) : prog smnode :=
  rb ← Done (range_bitmaps start h bm);
  if rb.1 =? 0 then Done (Ok SMNull)
  else if has_only_child h rb.1 rb.2 then
    n ← Done (nib_from_u8 (trailing_zeros rb.1));
    c ← Done (unwrap (in_child i n));
    nd ← rn (gen_child nk (c_version c) n);
    Done (match nd with
          | Internal i' => sm_internal_from H i'
          | Leaf l => Ok (SMLeaf l)
          | Null => Panic
          end)
  else Done (match h with
       | O => Panic
       | S h' =>
           l ← merkle_hash H i h' start rb;
           r ← merkle_hash H i h' (start + 2 ^ N.of_nat h / 2) rb;
           Ok (SMInternal l r)
       end).
(** node_type.rs:676-761 get_child_with_siblings_helper *)
Fixpoint siblings_loop_p (rn : nodekey -> prog node) (nk : nodekey) (i : internal_node)
    (n : nibble) (only : bool) (bm : N * N) (hs : nat) (sibs : list smnode) : prog (option nodekey * list smnode) :=
  match hs with
  | O => Done Panic
  | S h =>
      s ← build_sibling_p rn nk i (sibling_half_start n h) h bm;
      let sibs := sibs ++ [s] in
      rb ← Done (range_bitmaps (child_half_start n h) h bm);
      if rb.1 =? 0 then Done (Ok (None, sibs))
      else if only && has_only_child h rb.1 rb.2 then
        m ← Done (nib_from_u8 (trailing_zeros rb.1));
        c ← Done (unwrap (in_child i m));
        Done (Ok (Some (gen_child nk (c_version c) m), sibs))
      else if negb only && has_child h rb.1 (N.shiftl 1 (nib_to_N n)) rb.2 then
        c ← Done (unwrap (in_child i n));
        Done (Ok (Some (gen_child nk (c_version c) n), sibs))
      else siblings_loop_p rn nk i n only bm h sibs
  end.
Definition child_siblings_p (rn : nodekey -> prog node) (nk : nodekey) (i : internal_node) (n : nibble) (only : bool) : prog (option nodekey * list smnode) :=
  bm ← Done (generate_bitmaps i); siblings_loop_p rn nk i n only bm 4 [].

(** tree.rs:1020-1026: every error at depth 0 becomes MissingRootError *)
Definition req_at (top : bool) (v : version) (nk : nodekey) : prog node :=
  if top then req_node_e (EMissingRoot v) (fun _ => EMissingRoot v) nk else req_node nk.
(** tree.rs:1006-1080 get_with_proof *)
Fixpoint gwp_loop_p (k : key) (v : version) (rem : list nibble) (top : bool) (nk : nodekey) (sibs : list smnode) {struct rem}
    : prog (option value * sm_proof) :=
  nd ← req_at top v nk;
  match nd with
  | Internal i =>
      match rem with
      | [] => Done (Err (EOther "ran out of nibbles"))
      | n :: rem' =>
          '(ck, s) ← child_siblings_p req_node_unwrap nk i n true;
          let sibs := sibs ++ s in
          match ck with
          | Some ck => gwp_loop_p k v rem' false ck sibs
          | None => Done (Ok (None, SMProof None (rev sibs)))
          end
      end
  | Leaf l =>
      x ← (if decide (ln_key l = k) then x ← req_value v (ln_key l); Done (Ok (Some x)) else Done (Ok None));
      Done (Ok (x, SMProof (Some l) (rev sibs)))
  | Null => Done (if top then Ok (None, SMProof None []) else Err (EOther "Non-root null node exists"))
  end.
Definition get_with_proof_p (k : key) (v : version) : prog (option value * sm_proof) :=
  gwp_loop_p k v (key_nibbles k) true (nk_root v) [].
(** tree.rs:1361-1385 get_range_proof *)
Definition get_range_proof_p (k : key) (v : version) : prog range_proof :=
  '(x, p) ← get_with_proof_p k v;
  Done (_ ← ensure_ (match x with Some _ => true | None => false end) "rightmost_key_to_prove must exist.";
        Ok (RangeProof (rev (omap (fun sb => if negb (snd sb) then Some (fst sb) else None)
                            (zip (rev (p_siblings p)) (key_bits k)))))).
(** tree.rs:1391-1393 get, 1395-1418 root hash and leaf count *)
Definition get_p (k : key) (v : version) : prog (option value) := req_value_option v k.
Definition get_root_hash_p (v : version) : prog hash :=
  o ← req_node_option (nk_root v); Done (n ← ok_or (EOther "Root node not found") o; node_hash H n).
Definition get_root_hash_option_p (v : version) : prog (option hash) :=
  o ← req_node_option (nk_root v);
  Done (match o with None => Ok None | Some n => h ← node_hash H n; Ok (Some h) end).
Definition get_leaf_count_p (v : version) : prog nat :=
  o ← req_node_option (nk_root v); Done (n ← ok_or (EOther "Root node not found") o; Ok (node_leaf_count n)).

(** tree.rs:1308-1354 get_extreme_key_hash *)
Fixpoint extreme_loop_p (fuel depth : nat) (v : version) (nk : nodekey) (e : extreme) : prog key :=
  match fuel with
  | O => Done (Err (EOther "Jellyfish Merkle tree has cyclic graph inside."))
  | S f =>
      nd ← req_at (depth =? 0)%nat v nk;
      match nd with
      | Internal i =>
          n ← Done (unwrap (min_or_max i e));
          ck ← Done (get_only_child_without_siblings nk i n);
          match ck with
          | Some ck => extreme_loop_p f (S depth) v ck e
          | None => Done (Err (EOther "Internal node has no children"))
          end
      | Leaf l => Done (Ok (ln_key l))
      | Null => Done (Err (EOther "Null node cannot have children"))
      end
  end.
(** tree.rs:1082-1126 search_closest_extreme_node *)
Fixpoint closest_loop_p (v : version) (e : extreme) (rpath : list nibble) (rparents : list internal_node) : prog (option key) :=
  match rpath, rparents with
  | idx :: rp, parent :: rps =>
      match neighbor_nibble parent idx e with
      | Some (nb, w) =>
          let path := rev rp ++ [nb] in
          k ← extreme_loop_p (65 - length path) (length path) v (w, path) (opposite e); Done (Ok (Some k))
      | None => closest_loop_p v e rp rps
      end
  | _, _ => Done (Ok None)
  end.
(** tree.rs:1129-1197 search_for_closest_node *)
Fixpoint search_loop_p (k : key) (v : version) (rem visited : list nibble) (nk : nodekey) (parents : list internal_node) {struct rem}
    : prog search_result :=
  nd ← req_at (length visited =? 0)%nat v nk;
  match nd with
  | Internal i =>
      let parents := parents ++ [i] in
      match rem with
      | [] => Done (Err (EOther "ran out of nibbles"))
      | n :: rem' =>
          let visited := visited ++ [n] in
          ck ← Done (get_only_child_without_siblings nk i n);
          match ck with
          | Some ck => search_loop_p k v rem' visited ck parents
          | None => Done (Ok (FoundInternal visited parents))
          end
      end
  | Leaf l => Done (Ok (FoundLeaf (key_compare (ln_key l) k) (ln_key l) visited parents))
  | Null => Done (
      if (length visited =? 0)%nat then Err (EOther "Cannot manufacture nonexistence proof by exclusion for the empty tree")
      else Err (EOther "Non-root null node exists"))
  end.
(** tree.rs:1199-1262 get_bounding_path *)
Definition get_bounding_path_p (k : key) (v : version) : prog (option key * option key) :=
  r ← search_loop_p k v (key_nibbles k) [] (nk_root v) [];
  match r with
  | FoundLeaf ord leaf path parents =>
      match ord with
      | Lt => r ← closest_loop_p v ERight (rev path) (rev parents); Done (Ok (Some leaf, r))
      | Gt => l ← closest_loop_p v ELeft (rev path) (rev parents); Done (Ok (l, Some leaf))
      | Eq => Done (Err (EOther "found exact key when searching for bounding path for nonexistence proof"))
      end
  | FoundInternal path parents =>
      r ← closest_loop_p v ERight (rev path) (rev parents);
      l ← closest_loop_p v ELeft (rev path) (rev parents);
      Done (Ok (l, r))
  end.
(** tree.rs:1265-1306 get_with_exclusion_proof *)
Definition get_with_exclusion_proof_p (k : key) (v : version) : prog (value * sm_proof + exclusion_proof) :=
  '(x, p) ← get_with_proof_p k v;
  match x with
  | Some x => Done (Ok (inl (x, p)))
  | None =>
      '(l, r) ← get_bounding_path_p k v;
      match l, r with
      | Some lb, Some rb =>
          '(_, lp) ← get_with_proof_p lb v;
          '(_, rp) ← get_with_proof_p rb v;
          Done (Ok (inr (EPMiddle rp lp)))
      | Some lb, None => '(_, lp) ← get_with_proof_p lb v; Done (Ok (inr (EPRightmost lp)))
      | None, Some rb => '(_, rp) ← get_with_proof_p rb v; Done (Ok (inr (EPLeftmost rp)))
      | None, None => Done (Err (EOther "Invalid exclusion proof"))
      end
  end.

(** iterator.rs:124-189 new *)
Fixpoint iter_new_loop_p (v : version) (start : key) (rem : list nibble) (nk : nodekey) (st : list visit_info) : prog jmt_iter :=
  nd ← req_node nk;
  match nd with
  | Internal i =>
      match rem with
      | [] => Done Panic
      | n :: rem' =>
          match in_child i n with
          | Some c =>
              x ← Done (visit_new_at nk i n);
              iter_new_loop_p v start rem' (gen_child nk (c_version c) n) (x :: st)
          | None => Done (
              bm ← generate_bitmaps i;
              _ ← assert_ (negb (bm.1 =? 0)); (* see Iterator.v *)
              if nib_to_N n <? 15 - leading_zeros bm.1 then
                x ← visit_new_at nk i n;
                Ok (mkIter v (x :: st) false)
              else
                st' ← cleanup_stack st;
                Ok (mkIter v st' false))
          end
      end
  | _ => (* 166: the last node is read once more *)
      nd ← req_node nk;
      match nd with
      | Internal _ => Done Panic (* 167 unreachable! *)
      | Leaf l => Done (
          if key_ltb (ln_key l) start then
            st' ← cleanup_stack st;
            Ok (mkIter v st' (match st' with [] => true | _ => false end))
          else Ok (mkIter v st false))
      | Null => Done (Ok (mkIter v st true))
      end
  end.
Definition iter_new_p (v : version) (start : key) : prog jmt_iter := iter_new_loop_p v start (key_nibbles start) (nk_root v) [].
(** iterator.rs:204-253 new_by_index *)
Fixpoint iter_index_loop_p (fuel : nat) (v : version) (target skipped : nat) (nk : nodekey) (nd : node) (st : list visit_info) : prog jmt_iter :=
  match fuel with
  | O => Done (Err (EOther "Bug: potential infinite loop."))
  | S f =>
      match nd with
      | Null => Done Panic
      | Leaf _ => Done (
          _ ← ensure_ (skipped =? target)%nat "Bug: The leaf should be the exact one we are looking for.";
          Ok (mkIter v st false))
      | Internal i =>
          '(n, c, skipped) ← Done (skip_leaves (children_iter (in_children i)) skipped target);
          x ← Done (visit_new_at nk i n);
          nd' ← req_node (gen_child nk (c_version c) n);
          iter_index_loop_p f v target skipped (gen_child nk (c_version c) n) nd' (x :: st)
      end
  end.
Definition iter_new_by_index_p (v : version) (target : nat) : prog jmt_iter :=
  nd ← req_node (nk_root v);
  if (node_leaf_count nd <=? target)%nat then Done (Ok (mkIter v [] true))
  else iter_index_loop_p 65 v target 0 (nk_root v) nd [].
(** iterator.rs:280-349 next *)
Fixpoint iter_next_loop_p (fuel : nat) (v : version) (st : list visit_info) : prog (option (key * value) * jmt_iter) :=
  match fuel with
  | O => Done Panic
  | S f =>
      match st with
      | [] => Done Panic
      | x :: _ =>
          n ← Done (nib_from_u8 (trailing_zeros (vi_next x)));
          c ← Done (unwrap (in_child (vi_node x) n));
          let nk := gen_child (vi_key x) (c_version c) n in
          nd ← req_node nk;
          match nd with
          | Internal i => x' ← Done (visit_new nk i); iter_next_loop_p f v (x' :: st)
          | Leaf l =>
              y ← req_value (nk_version nk) (ln_key l);
              Done (st' ← cleanup_stack st; Ok (Some (ln_key l, y), mkIter v st' false))
          | Null => Done (Err (EOther "Should not reach a null node."))
          end
      end
  end.
Definition iter_next_p (it : jmt_iter) : prog (option (key * value) * jmt_iter) :=
  if it_done it then Done (Ok (None, it))
  else match it_stack it with
       | [] =>
           nd ← req_node (nk_root (it_version it));
           match nd with
           | Leaf l =>
               y ← req_value (it_version it) (ln_key l);
               Done (Ok (Some (ln_key l, y), mkIter (it_version it) [] true))
           | Internal _ => Done (Ok (None, it))
           | Null => Done Panic
           end
       | st => iter_next_loop_p 65 (it_version it) st
       end.

(** *** Commits *)
(** tree_cache.rs:154-189 TreeCache::new *)
Definition cache_new_p (next : version) : prog cache :=
  if next =? 0 then
    o ← req_node_option (nk_root PRE_GENESIS_VERSION);
    let '(root, nodes) := match o with
      | Some _ => (nk_root PRE_GENESIS_VERSION, ∅)
      | None => (nk_root 0, {[ nk_root 0 := Null ]})
      end in
    Done (Ok (mkCache root next nodes ∅ 0 ∅ 0 ∅ ∅ ∅ [] []))
  else Done (Ok (mkCache (nk_root (next - 1)) next ∅ ∅ 0 ∅ 0 ∅ ∅ ∅ [] [])).
(** tree_cache.rs:224-244 get_node, get_node_option; the store is asked only for what is not in the cache *)
Definition cache_cached (c : cache) (nk : nodekey) : option node :=
  match tc_nodes c !! nk with Some n => Some n | None => fz_nodes c !! nk end.
Definition creq_option (c : cache) (nk : nodekey) : prog (option node) :=
  match cache_cached c nk with Some n => Done (Ok (Some n)) | None => req_node_option nk end.
Definition creq_node (c : cache) (nk : nodekey) : prog node :=
  match cache_cached c nk with Some n => Done (Ok n) | None => req_node nk end.
Definition creq_unwrap (c : cache) (nk : nodekey) : prog node :=
  match cache_cached c nk with Some n => Done (Ok n) | None => req_node_unwrap nk end.
(** tree_cache.rs:290-357 freeze *)
Definition cache_freeze_p (c : cache) : prog cache :=
  let root_nk := tc_root c in
  o ← creq_option c root_nk;
  '(c, root_node) ← Done (match o with
    | Some n => Ok (c, n)
    | None => c' ← cache_put_node c root_nk Null; Ok (c', Null)
    end);
  rh ← Done (node_hash H root_node);
  c ← (if (0 <? tc_next c) && (bool_decide (tc_nodes c = ∅)) && (bool_decide (tc_stale c = ∅))
       then n ← creq_node c (tc_root c);
            Done (cache_put_node c (nk_set_version root_nk (tc_next c)) n)
       else Done (Ok c));
  Done (Ok (mkCache (tc_root c) (tc_next c + 1) ∅ ∅ 0 ∅ 0
        (tc_nodes c ∪ fz_nodes c) (tc_values c ∪ fz_values c)
        (set_map (pair (tc_next c)) (tc_stale c) ∪ fz_stale c)
        (fz_stats c ++ [mkStats (size (tc_nodes c)) (tc_new_leaves c) (size (tc_stale c)) (tc_stale_leaves c)])
        (fz_roots c ++ [rh]))).

(** tree.rs:653-818 insert_at_internal_node *)
Definition insert_at_internal_p (nk : nodekey) (i : internal_node) (v : version) (n : nibble)
    (full : list nibble) (vh : option vhash) (c : cache) (wp : bool)
    (rec : nodekey -> cache -> prog (put_result * option sm_proof * cache)) : prog (put_result * option sm_proof * cache) :=
  '(res, pf, c) ←
    match in_child i n with
    | Some ci =>
        '(child_nk, sibs) ←
          (if wp then
             '(ck, sibs) ← child_siblings_p (creq_unwrap c) nk i n false;
             ck ← Done (unwrap ck);
             Done (Ok (ck, sibs))
           else Done (Ok (gen_child nk (c_version ci) n, [])));
        '(res, pf, c) ← rec child_nk c;
        Done (Ok (res, (fun p => SMProof (p_leaf p) (p_siblings p ++ rev sibs)) <$> pf, c))
    | None =>
        pf ←
          (if wp then
             '(ck, sibs) ← child_siblings_p (creq_unwrap c) nk i n true;
             lf ← match ck with
                  | None => Done (Ok None)
                  | Some ck =>
                      nd ← creq_unwrap c ck;
                      Done (match nd with
                            | Leaf l => Ok (Some l)
                            | _ => Panic
                            end)
                  end;
             Done (Ok (Some (SMProof lf (rev sibs))))
           else Done (Ok None));
        match vh with
        | Some vh =>
            '(nk', nd, c) ← Done (create_leaf_node (gen_child nk v n) full vh c);
            Done (Ok (Updated nk' nd, pf, c))
        | None => Done (Ok (NotChanged, with_pf wp (SMProof None []), c))
        end
    end;
  match res with
  | NotChanged => Done (Ok (NotChanged, with_pf wp (SMProof None []), c))
  | _ =>
      ch ← Done (match res with
           | Updated _ nd =>
               h ← node_hash H nd;
               t ← node_node_type nd;
               Ok (<[ n := Child h v t ]> (in_children i))
           | _ => Ok (delete n (in_children i))
           end);
      c ← Done (cache_delete_node c nk false);
      match children_iter ch with
      | [] => Done (Ok (Removed, pf, c))
      | (cn, ci) :: more =>
          if (match more with [] => true | _ => false end) && c_is_leaf ci then
            let child_key := gen_child nk (c_version ci) cn in
            child_node ← creq_node c child_key;
            Done (c ← cache_delete_node c child_key true;
                  let nk' := nk_set_version nk v in
                  c ← cache_put_node c nk' child_node;
                  Ok (Updated nk' child_node, pf, c))
          else Done (
            i' ← internal_new ch;
            let nk' := nk_set_version nk v in
            c ← cache_put_node c nk' (Internal i');
            Ok (Updated nk' (Internal i'), pf, c))
      end
  end.
(** tree.rs:576-648 insert_at *)
Fixpoint insert_at_p (rem : list nibble) (visited : list nibble) (nk : nodekey) (v : version)
    (vh : option vhash) (c : cache) (wp : bool) {struct rem} : prog (put_result * option sm_proof * cache) :=
  o ← creq_option c nk;
  match o with
  | Some (Internal i) =>
      match rem with
      | [] => Done Panic
      | n :: rem' =>
          insert_at_internal_p nk i v n (visited ++ rem) vh c wp
            (fun ck c => insert_at_p rem' (visited ++ [n]) ck v vh c wp)
      end
  | Some (Leaf lf) => Done (insert_at_leaf_node H nk lf v visited rem vh c wp)
  | onull => Done (
      if negb (bool_decide (nk_path nk = [])) then Err (EOther "Null node exists for non-root node")
      else
        c ← (if (nk_version nk =? v) && (match onull with Some _ => true | None => false end)
             then cache_delete_node c nk false else Ok c);
        match vh with
        | Some vh =>
            '(nk', nd, c) ← create_leaf_node (nk_root v) (visited ++ rem) vh c;
            Ok (Updated nk' nd, with_pf wp (SMProof None []), c)
        | None => Ok (NotChanged, with_pf wp (SMProof None []), c)
        end)
  end.
(** tree.rs:527-570 put *)
Definition put_p (k : key) (vh : option vhash) (v : version) (c : cache) (wp : bool) : prog (option sm_proof * cache) :=
  '(res, pf, c) ← insert_at_p (key_nibbles k) [] (tc_root c) v vh c wp;
  Done (match res with
  | Updated nk _ => Ok (pf, cache_set_root c nk)
  | NotChanged => Ok (pf, c)
  | Removed =>
      let c := cache_set_root c (nk_root v) in
      c ← cache_put_node c (nk_root v) Null;
      Ok (pf, c)
  end).
(** tree.rs:420-446 put_value_sets *)
Fixpoint put_set_p (v : version) (kvs : list (key * option value)) (c : cache) : prog cache :=
  match kvs with
  | [] => Done (Ok c)
  | (k, x) :: kvs' =>
      let c := cache_put_value c v k x in
      '(_, c) ← put_p k (value_hash H <$> x) v c false;
      put_set_p v kvs' c
  end.
Fixpoint put_sets_p (v : version) (sets : list (list (key * option value))) (c : cache) : prog cache :=
  match sets with
  | [] => Done (Ok c)
  | s :: sets' =>
      c ← put_set_p v s c;
      c ← cache_freeze_p c;
      put_sets_p (v + 1) sets' c
  end.
Definition put_value_sets_p (sets : list (list (key * option value))) (first : version) : prog (list hash * tree_batch) :=
  c ← cache_new_p first;
  c ← put_sets_p first sets c;
  Done (Ok (cache_into c)).
(** tree.rs:484-525 put_value_sets_with_proof *)
Fixpoint put_set_with_proof_p (v : version) (kvs : list (key * option value)) (c : cache) : prog (list sm_proof * cache) :=
  match kvs with
  | [] => Done (Ok ([], c))
  | (k, x) :: kvs' =>
      let c := cache_put_value c v k x in
      '(pf, c) ← put_p k (value_hash H <$> x) v c true;
      pf ← Done (unwrap pf);
      '(pfs, c) ← put_set_with_proof_p v kvs' c;
      Done (Ok (pf :: pfs, c))
  end.
Fixpoint put_sets_with_proof_p (v : version) (sets : list (list (key * option value))) (c : cache) : prog (list (list sm_proof) * cache) :=
  match sets with
  | [] => Done (Ok ([], c))
  | s :: sets' =>
      '(pfs, c) ← put_set_with_proof_p v s c;
      c ← cache_freeze_p c;
      '(rest, c) ← put_sets_with_proof_p (v + 1) sets' c;
      Done (Ok (pfs :: rest, c))
  end.
Definition put_value_sets_with_proof_p (sets : list (list (key * option value))) (first : version)
    : prog (list (hash * list sm_proof) * tree_batch) :=
  c ← cache_new_p first;
  '(pfs, c) ← put_sets_with_proof_p first sets c;
  Done (let '(roots, b) := cache_into c in Ok (zip roots pfs, b)).

(** tree.rs:140-181: the loop of batch_insert_at *)
Fixpoint batch_loop_p (v : version) (kvs : list (key * vhash)) (depth : nat) (hc : option hash_cache)
    (body : nibble -> list (key * vhash) -> bool -> cache -> prog (nodekey * node * bool * cache))
    (ranges : list (nat * nat)) (ch : children) (flag : bool) (c : cache) : prog (children * bool * cache) :=
  match ranges with
  | [] => Done (Ok (ch, flag, c))
  | (lft, rgt) :: ranges' =>
      kv ← Done (unwrap (kvs !! lft));
      n ← Done (get_nibble kv.1 depth);
      sub ← Done (slice_incl kvs lft rgt);
      '(nk, nd, flag, c) ← body n sub flag c;
      h ← Done (get_hash H nk nd hc);
      t ← Done (node_node_type nd);
      batch_loop_p v kvs depth hc body ranges' (<[ n := Child h v t ]> ch) flag c
  end.
(** tree.rs:122-225 batch_insert_at; the functions that create subtrees ask nothing *)
Fixpoint batch_insert_at_p (rem : nat) (nk : nodekey) (v : version) (kvs : list (key * vhash)) (depth : nat)
    (hc : option hash_cache) (c : cache) {struct rem} : prog (nodekey * node * cache) :=
  _ ← Done (assert_ (match kvs with [] => false | _ => true end));
  nd ← creq_node c nk;
  match nd with
  | Internal i =>
      match rem with
      | O => Done Panic
      | S rem' =>
          c ← Done (cache_delete_node c nk false);
          ranges ← Done (nri_ranges kvs depth);
          '(ch, _, c) ← batch_loop_p v kvs depth hc
            (fun n sub flag c =>
               '(cnk, cnd, c) ←
                 match in_child i n with
                 | Some child => batch_insert_at_p rem' (gen_child nk (c_version child) n) v sub (S depth) hc c
                 | None => Done (batch_create_subtree H rem' (gen_child nk v n) v sub (S depth) hc c)
                 end;
               Done (Ok (cnk, cnd, flag, c)))
            ranges (in_children i) false c;
          Done (i' ← internal_new ch;
                let nk' := nk_set_version nk v in
                c ← cache_put_node c nk' (Internal i');
                Ok (nk', Internal i', c))
      end
  | Leaf lf => Done (
      c ← cache_delete_node c nk true;
      batch_create_with_leaf H rem (nk_set_version nk v) v lf kvs depth hc c)
  | Null => Done (
      if negb (bool_decide (nk_path nk = [])) then Err (EOther "Null node exists for non-root node")
      else
        c ← (if nk_version nk =? v then cache_delete_node c nk false else Ok c);
        batch_create_subtree H rem (nk_root v) v kvs depth hc c)
  end.
(** tree.rs:74-120 batch_put_value_sets *)
Definition batch_set_p (v : version) (s : list (key * value)) (hc : option hash_cache) (c : cache) : prog cache :=
  _ ← Done (assert_ (match s with [] => false | _ => true end));
  let l := btree_collect s in
  let c := put_values v l c in
  '(nk, _, c) ← batch_insert_at_p 64 (tc_root c) v (map (fun kx => (kx.1, value_hash H kx.2)) l) 0 hc c;
  cache_freeze_p (cache_set_root c nk).
Fixpoint batch_sets_p (v : version) (sets : list (list (key * value) * option hash_cache)) (c : cache) : prog cache :=
  match sets with
  | [] => Done (Ok c)
  | (s, hc) :: sets' => c ← batch_set_p v s hc c; batch_sets_p (v + 1) sets' c
  end.
Definition batch_put_value_sets_p (sets : list (list (key * value))) (node_hashes : option (list hash_cache))
    (first : version) : prog (list hash * tree_batch) :=
  let hcs := match node_hashes with
             | Some hs => map Some hs
             | None => map (fun _ => None) sets
             end in
  _ ← Done (assert_ (length sets =? length hcs)%nat);
  c ← cache_new_p first;
  c ← batch_sets_p first (zip sets hcs) c;
  Done (Ok (cache_into c)).
End reads.
