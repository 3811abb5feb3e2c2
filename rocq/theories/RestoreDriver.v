(** Clients of the restore of Restore.v: an honest one that feeds a tree in chunks, with crashes, and an arbitrary one. *)
From Coq Require Import Strings.String.
From Verif Require Import Base Spec SpecOrder SpecRange NodeType ProofDef TreeCache Mock Tree Restore.
From Verif Require Import RangeFacts.

(** What an honest client does: deliver the next [n + 1] entries it has not delivered yet (all that are left if fewer,
    nothing if none is left) with the range proof of the last of them; or the process dies and the restore is
    reopened on the same store. *)
Inductive event : Type := Deliver (n : nat) | Crash.

Section drivers.
Context (H : list byte -> bytes32) (ovf : bool).

(** The entries still to be delivered to a store: those above its rightmost leaf (as src/tests/restore.rs:38-62 does). *)
Definition above_rightmost (s : store) (m : gmap key value) : list (key * value) :=
  match store_rightmost s with
  | None => entries m
  | Some (_, l) => filter (fun e => key_ltb (ln_key l) e.1 = true) (entries m)
  end.
(** [src], [vs]: the tree [m] being copied, [v]: the version it is restored as, [root]: the root hash expected. *)
Fixpoint deliver (src : reader) (vs : version) (m : gmap key value) (v : version) (root : hash)
    (evs : list event) (rs : rstate) (rest : list (key * value)) : outcome (rstate * list (key * value)) :=
  match evs with
  | [] => Ok (rs, rest)
  | Deliver n :: evs' =>
      match last (take (n + 1) rest) with
      | None => deliver src vs m v root evs' rs rest
      | Some (k, _) =>
          p ← get_range_proof H src k vs;
          '(rs, e) ← add_chunk H ovf rs (take (n + 1) rest) p;
          match e with
          | Some e => Err e
          | None => deliver src vs m v root evs' rs (drop (n + 1) rest)
          end
      end
  | Crash :: evs' =>
      rs' ← restore_new H (rs_store rs) v root;
      deliver src vs m v root evs' rs' (above_rightmost (rs_store rs) m)
  end.
(** from an empty store *)
Definition deliver_all (src : reader) (vs : version) (m : gmap key value) (v : version) (root : hash)
    (evs : list event) : outcome (rstate * list (key * value)) :=
  rs ← restore_new H store_empty v root; deliver src vs m v root evs rs (entries m).

(** An arbitrary client: any chunk with any proof, or a crash and reopening; errors are ignored. *)
Inductive call : Type := Add (c : list (key * value)) (p : range_proof) | Reopen.
(** The part of a chunk that is taken: up to the first key out of order. *)
Fixpoint taken (prev : option key) (c : list (key * value)) : list (key * value) :=
  match c with
  | [] => []
  | (k, x) :: c' =>
      if match prev with None => true | Some k0 => key_ltb k0 k end then (k, x) :: taken (Some k) c' else []
  end.
Definition insert_all (l : list (key * value)) (m : gmap key value) : gmap key value :=
  fold_left (fun m e => <[ e.1 := e.2 ]> m) l m.
(** The state of the client: the restore, the entries it holds (those of chunks, accepted or not, given to this object, and those
    below the rightmost stored leaf), the last key given, and the inputs hashed to check the accepted chunks. *)
Record client : Type := Client {
  cl_obj : rstate; cl_given : gmap key value; cl_last : option key; cl_hashed : list (list byte) }.
(** the inputs hashed for a chunk that ends with [k]; the number of left siblings is that of some depth [d] *)
Definition chunk_inputs (X : gmap key value) (k : option key) (p : range_proof) : list (list byte) :=
  match k with
  | None => []
  | Some k =>
      match X !! k with
      | None => []
      | Some x => root_inputs H X ++ flat_map (fun d => range_inputs H (LeafNode k (H x)) (left_hashes H X k d) p) (seq 0 257)
      end
  end.
Definition one_call (v : version) (root : hash) (c : client) (e : call) : outcome (client * bool) :=
  match e with
  | Add ch p =>
      '(rs, err) ← add_chunk H ovf (cl_obj c) ch p;
      let t := taken (cl_last c) ch in
      let X := insert_all t (cl_given c) in
      let k := match last t with Some e => Some e.1 | None => cl_last c end in
      Ok (match err with
          | None => (Client rs X k (cl_hashed c ++ chunk_inputs X k p), true)
          | Some _ => (Client rs X k (cl_hashed c), false)
          end)
  | Reopen =>
      let s := rs_store (cl_obj c) in
      rs ← restore_new H s v root;
      let k := match store_rightmost s with Some (_, l) => Some (ln_key l) | None => None end in
      let X := match k with
               | None => ∅
               | Some k => filter (fun kx : key * value => key_ltb k kx.1 = false) (omap (fun h => match h with (_, Some x) :: _ => Some x | _ => None end) (st_history s))
               end in
      Ok (Client rs X k (cl_hashed c), false)
  end.
(** the client after the calls, and whether the last one was an accepted chunk *)
Fixpoint all_calls (v : version) (root : hash) (c : client) (b : bool) (l : list call) : outcome (client * bool) :=
  match l with
  | [] => Ok (c, b)
  | e :: l' => '(c, b) ← one_call v root c e; all_calls v root c b l'
  end.
Definition client_run (v : version) (root : hash) (l : list call) : outcome (client * bool) :=
  rs ← restore_new H store_empty v root; all_calls v root (Client rs ∅ None []) false l.
End drivers.
