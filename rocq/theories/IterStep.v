(** Model of src/iterator.rs, the state of the iterator after a failed step. *)
From Coq Require Import Strings.String.
From Verif Require Import Base NodeType TreeCache Tree Iterator.

(** iterator.rs:278 type Item = Result<(KeyHash, OwnedValue)>: what one call of next() returns *)
Inductive it_item : Type := ItEnd | ItOk (kx : key * value) | ItErr (e : error).
Section step.
Context (rd : reader).
(** iterator.rs:313-347 the loop of next.  The nodes pushed on the way down stay on the stack when a later request fails;
    the outcome is [Panic] or [Ok]: an error is an item.  Fuel as in [iter_next_loop]. *)
Fixpoint iter_step_loop (fuel : nat) (v : version) (st : list visit_info) : outcome (it_item * jmt_iter) :=
  match fuel with
  | O => Panic
  | S f =>
      match st with
      | [] => Panic
      | x :: _ =>
          n ← nib_from_u8 (trailing_zeros (vi_next x));
          c ← unwrap (in_child (vi_node x) n);
          let nk := gen_child (vi_key x) (c_version c) n in
          match rd_get_node rd nk with
          | Ok (Internal i) => x' ← visit_new nk i; iter_step_loop f v (x' :: st)
          | Ok (Leaf l) =>
              match rd_get_value rd (nk_version nk) (ln_key l) with
              | Ok y => st' ← cleanup_stack st; Ok (ItOk (ln_key l, y), mkIter v st' false)
              | Err e => Ok (ItErr e, mkIter v st false)
              | Panic => Panic
              end
          | Ok Null => Ok (ItErr (EOther "Should not reach a null node."), mkIter v st false)
          | Err e => Ok (ItErr e, mkIter v st false)
          | Panic => Panic
          end
      end
  end.
(** iterator.rs:280-349 next; [done] is set before the value of a single leaf is read (line 295) *)
Definition iter_step (it : jmt_iter) : outcome (it_item * jmt_iter) :=
  if it_done it then Ok (ItEnd, it)
  else match it_stack it with
       | [] =>
           match rd_get_node rd (nk_root (it_version it)) with
           | Ok (Leaf l) =>
               let it' := mkIter (it_version it) [] true in
               match rd_get_value rd (it_version it) (ln_key l) with
               | Ok y => Ok (ItOk (ln_key l, y), it')
               | Err e => Ok (ItErr e, it')
               | Panic => Panic
               end
           | Ok (Internal _) => Ok (ItEnd, it)
           | Ok Null => Panic
           | Err e => Ok (ItErr e, it)
           | Panic => Panic
           end
       | st => iter_step_loop 65 (it_version it) st
       end.
(** where next succeeds this is the model of Iterator.v *)
Definition item_result (r : outcome (it_item * jmt_iter)) : outcome (option (key * value) * jmt_iter) :=
  match r with
  | Ok (ItEnd, it) => Ok (None, it)
  | Ok (ItOk kx, it) => Ok (Some kx, it)
  | Ok (ItErr e, _) => Err e
  | Err e => Err e
  | Panic => Panic
  end.
End step.
