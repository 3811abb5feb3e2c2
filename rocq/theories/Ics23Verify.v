(** The ICS23 verification rules (verify_membership and verify_non_membership of the ics23 crate), which the users of
    get_with_ics23_proof run with ics23_spec().  The crate is not part of /repo; this is a model of its documented rules.
    [None] is a rejected proof.  [sha] is SHA-256.  The depth bounds are checked apart ([depth_ok]), because crate
    versions differ in when they enforce them. *)
From Verif Require Import Base Ics23.
Local Open Scope nat_scope.

Section verify.
Context (sha : list byte -> bytes32).

(** [ensure!(b, ..)] of the ics23 crate *)
Definition guard_ (b : bool) : option unit := if b then Some tt else None.
(** do_hash *)
Definition do_hash (op : hash_op) (d : list byte) : option (list byte) :=
  match op with NoHash => Some d | Sha256 => Some (b32 (sha d)) | OtherHash => None end.
(** do_length *)
Definition do_length (op : length_op) (d : list byte) : option (list byte) :=
  match op with NoPrefix => Some d | OtherLength => None end.
(** prepare_leaf_data: the data must not be empty *)
Definition prepare_leaf_data (h : hash_op) (l : length_op) (d : list byte) : option (list byte) :=
  _ ← guard_ (negb (length d =? 0)); x ← do_hash h d; do_length l x.
Definition apply_leaf (op : leaf_op) (k v : list byte) : option (list byte) :=
  a ← prepare_leaf_data (lo_prehash_key op) (lo_length op) k;
  b ← prepare_leaf_data (lo_prehash_value op) (lo_length op) v;
  do_hash (lo_hash op) (lo_prefix op ++ a ++ b).
Definition apply_inner (op : inner_op) (child : list byte) : option (list byte) :=
  _ ← guard_ (negb (length child =? 0)); do_hash (io_hash op) (io_prefix op ++ child ++ io_suffix op).
Fixpoint apply_path (path : list inner_op) (h : list byte) : option (list byte) :=
  match path with [] => Some h | op :: path' => h' ← apply_inner op h; apply_path path' h' end.
(** calculate_existence_root: the leaf op, then the inner ops from the leaf to the root *)
Definition calculate_root (e : exist_proof) : option (list byte) :=
  lf ← ep_leaf e; h ← apply_leaf lf (ep_key e) (ep_value e); apply_path (ep_path e) h.

(** slice::starts_with *)
Fixpoint has_prefix (p l : list byte) : bool :=
  match p, l with [], _ => true | a :: p', b :: l' => bool_decide (a = b) && has_prefix p' l' | _, _ => false end.
Global Instance hash_op_eq_dec : EqDecision hash_op. Proof. solve_decision. Defined.
Global Instance length_op_eq_dec : EqDecision length_op. Proof. solve_decision. Defined.
(** ensure_leaf *)
Definition ensure_leaf (lf spec : leaf_op) : bool :=
  bool_decide (lo_hash lf = lo_hash spec) && bool_decide (lo_prehash_key lf = lo_prehash_key spec) &&
  bool_decide (lo_prehash_value lf = lo_prehash_value spec) && bool_decide (lo_length lf = lo_length spec) &&
  has_prefix (lo_prefix spec) (lo_prefix lf).
(** ensure_inner *)
Definition ensure_inner (spec : proof_spec) (op : inner_op) : bool :=
  let isp := ps_inner spec in
  bool_decide (io_hash op = is_hash isp) && negb (has_prefix (lo_prefix (ps_leaf spec)) (io_prefix op)) &&
  (is_min_prefix isp <=? length (io_prefix op)) &&
  (length (io_prefix op) <=? is_max_prefix isp + (length (is_child_order isp) - 1) * is_child_size isp) &&
  (length (io_suffix op) mod is_child_size isp =? 0).
(** check_existence_spec without the depth bounds *)
Definition check_spec (spec : proof_spec) (e : exist_proof) : bool :=
  match ep_leaf e with Some lf => ensure_leaf lf (ps_leaf spec) | None => false end && forallb (ensure_inner spec) (ep_path e).
(** the depth bounds of check_existence_spec: 0 means no bound *)
Definition depth_ok (spec : proof_spec) (e : exist_proof) : bool :=
  ((ps_min_depth spec =? 0) || (ps_min_depth spec <=? length (ep_path e))) &&
  ((ps_max_depth spec =? 0) || (length (ep_path e) <=? ps_max_depth spec)).
(** verify_existence *)
Definition ics_verify_existence (spec : proof_spec) (root : list byte) (k v : list byte) (e : exist_proof) : bool :=
  check_spec spec e && bool_decide (ep_key e = k) && bool_decide (ep_value e = v) && bool_decide (calculate_root e = Some root).

(** get_padding: (least prefix length, greatest prefix length, suffix length) of branch [b] *)
Definition get_padding (isp : inner_spec) (b : nat) : option (nat * nat * nat) :=
  idx ← list_find (fun x => x = b) (is_child_order isp);
  let idx := idx.2 in
  Some (idx * is_child_size isp + is_min_prefix isp, idx * is_child_size isp + is_max_prefix isp,
        is_child_size isp * (length (is_child_order isp) - 1 - idx)).
Definition has_padding (op : inner_op) (p : nat * nat * nat) : bool :=
  let '(lo, hi, s) := p in
  (lo <=? length (io_prefix op)) && (length (io_prefix op) <=? hi) && (length (io_suffix op) =? s).
(** order_from_padding: the first branch whose padding fits *)
Fixpoint order_from (isp : inner_spec) (op : inner_op) (bs : list nat) : option nat :=
  match bs with
  | [] => None
  | b :: bs' => p ← get_padding isp b; if has_padding op p then Some b else order_from isp op bs'
  end.
Definition order_from_padding (isp : inner_spec) (op : inner_op) : option nat :=
  order_from isp op (seq 0 (length (is_child_order isp))).
(** left_branches_are_empty, right_branches_are_empty *)
Definition left_branches_empty (isp : inner_spec) (op : inner_op) : option bool :=
  idx ← order_from_padding isp op;
  Some (if idx =? 0 then false
        else if length (io_prefix op) <? idx * is_child_size isp then false
        else forallb (fun i => bool_decide (take (is_child_size isp) (drop (length (io_prefix op) - idx * is_child_size isp + i * is_child_size isp) (io_prefix op)) = is_empty_child isp)) (seq 0 idx)).
Definition right_branches_empty (isp : inner_spec) (op : inner_op) : option bool :=
  idx ← order_from_padding isp op;
  let n := length (is_child_order isp) - 1 - idx in
  Some (if n =? 0 then false
        else if negb (length (io_suffix op) =? is_child_size isp) then false
        else forallb (fun i => bool_decide (take (is_child_size isp) (drop (i * is_child_size isp) (io_suffix op)) = is_empty_child isp)) (seq 0 n)).
(** ensure_left_most, ensure_right_most *)
Fixpoint ensure_left_most (isp : inner_spec) (path : list inner_op) : option unit :=
  match path with
  | [] => Some tt
  | op :: path' =>
      pad ← get_padding isp 0;
      if has_padding op pad then ensure_left_most isp path'
      else e ← left_branches_empty isp op; if (e : bool) then ensure_left_most isp path' else None
  end.
Fixpoint ensure_right_most (isp : inner_spec) (path : list inner_op) : option unit :=
  match path with
  | [] => Some tt
  | op :: path' =>
      pad ← get_padding isp (length (is_child_order isp) - 1);
      if has_padding op pad then ensure_right_most isp path'
      else e ← right_branches_empty isp op; if (e : bool) then ensure_right_most isp path' else None
  end.
(** is_left_step *)
Definition is_left_step (isp : inner_spec) (l r : inner_op) : option unit :=
  i ← order_from_padding isp l; j ← order_from_padding isp r; guard_ (i + 1 =? j).
(** ensure_left_neighbor; the paths are given from the root down here, the crate pops them from the end.
    Running out of steps rejects (the crate panics or fails there). *)
Fixpoint left_neighbor (isp : inner_spec) (l r : list inner_op) : option unit :=
  match l, r with
  | a :: l', b :: r' =>
      if bool_decide (io_prefix a = io_prefix b) && bool_decide (io_suffix a = io_suffix b) then left_neighbor isp l' r'
      else _ ← is_left_step isp a b; _ ← ensure_right_most isp (rev l'); ensure_left_most isp (rev r')
  | _, _ => None
  end.
Definition ensure_left_neighbor (isp : inner_spec) (l r : list inner_op) : option unit := left_neighbor isp (rev l) (rev r).
(** the key used for comparisons *)
Definition cmp_key (spec : proof_spec) (k : list byte) : list byte := if ps_prehash_key spec then b32 (sha k) else k.
Definition lex_ltb (x y : list byte) : bool := match bytes_compare x y with Lt => true | _ => false end.
(** verify_non_existence *)
Definition ics_verify_nonexistence (spec : proof_spec) (root : list byte) (k : list byte) (n : nonexist_proof) : bool :=
  match ne_left n with
  | Some l => ics_verify_existence spec root (ep_key l) (ep_value l) l && lex_ltb (cmp_key spec (ep_key l)) (cmp_key spec k)
  | None => true end &&
  match ne_right n with
  | Some r => ics_verify_existence spec root (ep_key r) (ep_value r) r && lex_ltb (cmp_key spec k) (cmp_key spec (ep_key r))
  | None => true end &&
  bool_decide (Some tt = match ne_left n, ne_right n with
  | Some l, Some r => ensure_left_neighbor (ps_inner spec) (ep_path l) (ep_path r)
  | Some l, None => ensure_right_most (ps_inner spec) (ep_path l)
  | None, Some r => ensure_left_most (ps_inner spec) (ep_path r)
  | None, None => None
  end).
(** verify_membership, verify_non_membership *)
Definition verify_membership (spec : proof_spec) (root k v : list byte) (p : commitment_proof) : bool :=
  match p with CPExist e => ics_verify_existence spec root k v e | _ => false end.
Definition verify_non_membership (spec : proof_spec) (root k : list byte) (p : commitment_proof) : bool :=
  match p with CPNonexist n => ics_verify_nonexistence spec root k n | _ => false end.
End verify.
