(** Model of src/iterator.rs: JellyfishMerkleIterator. *)
From Coq Require Import Strings.String.
From Verif Require Export TreeCache.
Local Open Scope N_scope.

(** iterator.rs:26-41 NodeVisitInfo *)
Record visit_info : Type := mkVisit {
  vi_key : nodekey; vi_node : internal_node; vi_bitmap : N; vi_next : N }.
(** u16 [<<]: bits beyond the 16th are lost *)
Definition shl16 (x s : N) : N := N.land (N.shiftl x s) 65535.
(** iterator.rs:46-55 NodeVisitInfo::new *)
Definition visit_new (nk : nodekey) (i : internal_node) : outcome visit_info :=
  bm ← generate_bitmaps i;
  _ ← assert_ (negb (bm.1 =? 0));
  Ok (mkVisit nk i bm.1 (shl16 1 (trailing_zeros bm.1))).
(** iterator.rs:68-70, 89-91: [while next & bitmap == 0 { next <<= 1 }].  The loop of the code has no bound; here
    it gets 16 rounds, after which [next] is 0 and the code diverges (modelled as a panic). *)
Fixpoint seek (fuel : nat) (bitmap next : N) : outcome N :=
  if N.land next bitmap =? 0 then
    match fuel with
    | O => Panic
    | S f => seek f bitmap (shl16 next 1)
    end
  else Ok next.
(** iterator.rs:60-77 NodeVisitInfo::new_next_child_to_visit *)
Definition visit_new_at (nk : nodekey) (i : internal_node) (n : nibble) : outcome visit_info :=
  bm ← generate_bitmaps i;
  let next := shl16 1 (nib_to_N n) in
  _ ← assert_ (next <=? bm.1);
  next ← seek 16 bm.1 next;
  Ok (mkVisit nk i bm.1 next).
(** iterator.rs:80-83 is_rightmost *)
Definition is_rightmost (x : visit_info) : outcome bool :=
  _ ← assert_ (leading_zeros (vi_bitmap x) <=? leading_zeros (vi_next x));
  Ok (leading_zeros (vi_next x) =? leading_zeros (vi_bitmap x)).
(** iterator.rs:86-92 advance *)
Definition visit_advance (x : visit_info) : outcome visit_info :=
  r ← is_rightmost x;
  _ ← assert_ (negb r);
  next ← seek 16 (vi_bitmap x) (shl16 (vi_next x) 1);
  Ok (mkVisit (vi_key x) (vi_node x) (vi_bitmap x) next).

(** iterator.rs:101-115 JellyfishMerkleIterator; the reader is a parameter, the stack has its last element first *)
Record jmt_iter : Type := mkIter { it_version : version; it_stack : list visit_info; it_done : bool }.

(** iterator.rs:191-200 cleanup_stack *)
Fixpoint cleanup_stack (st : list visit_info) : outcome (list visit_info) :=
  match st with
  | [] => Ok []
  | x :: st' =>
      r ← is_rightmost x;
      if (r : bool) then cleanup_stack st'
      else x' ← visit_advance x; Ok (x' :: st')
  end.

Section iter.
Context (rd : reader).

(** iterator.rs:124-189 new: the descent, structural on the remaining nibbles of the starting key; running out
    of them at an internal node is the expect() of line 133. *)
Fixpoint iter_new_loop (v : version) (start : key) (rem : list nibble) (nk : nodekey) (st : list visit_info)
    : outcome jmt_iter :=
  nd ← rd_get_node rd nk;
  match nd with
  | Internal i =>
      match rem with
      | [] => Panic
      | n :: rem' =>
          match in_child i n with
          | Some c =>
              x ← visit_new_at nk i n;
              iter_new_loop v start rem' (gen_child nk (c_version c) n) (x :: st)
          | None =>
              bm ← generate_bitmaps i;
              _ ← assert_ (negb (bm.1 =? 0)); (* 147: the subtraction underflows when there is no child; if it wraps, the assertion of line 67 fails *)
              if nib_to_N n <? 15 - leading_zeros bm.1 then
                x ← visit_new_at nk i n;
                Ok (mkIter v (x :: st) false)
              else
                st' ← cleanup_stack st;
                Ok (mkIter v st' false)
          end
      end
  | _ => (* 166: the last node is read once more *)
      nd ← rd_get_node rd nk;
      match nd with
      | Internal _ => Panic (* 167 unreachable! *)
      | Leaf l =>
          if key_ltb (ln_key l) start then
            st' ← cleanup_stack st;
            Ok (mkIter v st' (match st' with [] => true | _ => false end))
          else Ok (mkIter v st false)
      | Null => Ok (mkIter v st true)
      end
  end.
Definition iter_new (v : version) (start : key) : outcome jmt_iter :=
  iter_new_loop v start (key_nibbles start) (nk_root v) [].

(** iterator.rs:255-271 skip_leaves *)
Fixpoint skip_leaves (l : list (nibble * child)) (skipped target : nat) : outcome (nibble * child * nat) :=
  match l with
  | [] => Err (EOther "Bug: Internal node has less leaves than expected.")
  | (n, c) :: l' =>
      if (skipped + c_leaf_count c <=? target)%nat then skip_leaves l' (skipped + c_leaf_count c) target
      else Ok (n, c, skipped)
  end.
(** iterator.rs:219-250: at most ROOT_NIBBLE_HEIGHT + 1 = 65 rounds *)
Fixpoint iter_index_loop (fuel : nat) (v : version) (target skipped : nat) (nk : nodekey) (nd : node)
    (st : list visit_info) : outcome jmt_iter :=
  match fuel with
  | O => Err (EOther "Bug: potential infinite loop.")
  | S f =>
      match nd with
      | Null => Panic
      | Leaf _ =>
          _ ← ensure_ (skipped =? target)%nat "Bug: The leaf should be the exact one we are looking for.";
          Ok (mkIter v st false)
      | Internal i =>
          '(n, c, skipped) ← skip_leaves (children_iter (in_children i)) skipped target;
          x ← visit_new_at nk i n;
          nd' ← rd_get_node rd (gen_child nk (c_version c) n);
          iter_index_loop f v target skipped (gen_child nk (c_version c) n) nd' (x :: st)
      end
  end.
(** iterator.rs:204-253 new_by_index *)
Definition iter_new_by_index (v : version) (target : nat) : outcome jmt_iter :=
  nd ← rd_get_node rd (nk_root v);
  if (node_leaf_count nd <=? target)%nat then Ok (mkIter v [] true)
  else iter_index_loop 65 v target 0 (nk_root v) nd [].

(** iterator.rs:311-347 the loop of next, descending to the next leaf.  The code has no bound; 65 rounds suffice
    on a tree (proved), more is a cyclic graph (modelled as a panic).  [Err] stands for Some(Err(_)): the
    iterator state after an error is not modelled. *)
Fixpoint iter_next_loop (fuel : nat) (v : version) (st : list visit_info) : outcome (option (key * value) * jmt_iter) :=
  match fuel with
  | O => Panic
  | S f =>
      match st with
      | [] => Panic
      | x :: _ =>
          n ← nib_from_u8 (trailing_zeros (vi_next x));
          c ← unwrap (in_child (vi_node x) n);
          let nk := gen_child (vi_key x) (c_version c) n in
          nd ← rd_get_node rd nk;
          match nd with
          | Internal i => x' ← visit_new nk i; iter_next_loop f v (x' :: st)
          | Leaf l =>
              y ← rd_get_value rd (nk_version nk) (ln_key l);
              st' ← cleanup_stack st;
              Ok (Some (ln_key l, y), mkIter v st' false)
          | Null => Err (EOther "Should not reach a null node.")
          end
      end
  end.
(** iterator.rs:280-349 next *)
Definition iter_next (it : jmt_iter) : outcome (option (key * value) * jmt_iter) :=
  if it_done it then Ok (None, it)
  else match it_stack it with
       | [] =>
           nd ← rd_get_node rd (nk_root (it_version it));
           match nd with
           | Leaf l =>
               y ← rd_get_value rd (it_version it) (ln_key l);
               Ok (Some (ln_key l, y), mkIter (it_version it) [] true)
           | Internal _ => Ok (None, it)
           | Null => Panic
           end
       | st => iter_next_loop 65 (it_version it) st
       end.
End iter.
