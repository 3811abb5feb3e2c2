(** C94: hashing piece by piece.  With a hasher whose digest depends only on the concatenation of what it was fed, the nodes are hashed as in the rest of the model; TransparentHasher of src/lib.rs is none:
    with it, a root says next to nothing about the contents. *)
From Verif Require Import Base Spec NodeType ProofDef TreeCache Tree Mock Driver ThmProof Demo Hasher.
Local Opaque Spec.smt.

(** *** Specification *)
(** the digest depends on the bytes only, not on where they were cut *)
Definition streams {S} (h : hasher S) : Prop := forall pieces pieces', concat pieces = concat pieces' -> sh_digest h pieces = sh_digest h pieces'.

(** Then it is one function of the bytes, and nodes are hashed with it as in the model. *)
Theorem C94_streams {S} (h : hasher S) : streams h -> let H := sh_hash h in
  (forall pieces, sh_digest h pieces = H (concat pieces)) /\ (forall l r, sh_internal h l r = H (internal_input l r)) /\ (forall k vh, sh_leaf h k vh = H (leaf_input k vh)).
Proof.
  intros St H. assert (G : forall pieces, sh_digest h pieces = H (concat pieces)).
  { intros pieces. rewrite (St pieces [concat pieces]); [done|]. cbn. by rewrite app_nil_r. }
  split; [exact G|]. split; intros x y.
  - specialize (G [INTERNAL_DOMAIN_SEPARATOR; b32 x; b32 y]). cbn [concat] in G. rewrite app_nil_r in G. exact G.
  - specialize (G [LEAF_DOMAIN_SEPARATOR; b32 x; b32 y]). cbn [concat] in G. rewrite app_nil_r in G. exact G.
Qed.
(** It is enough that feeding two pieces is feeding them at once, and that an empty piece changes nothing. *)
Theorem C94_local {S} (h : hasher S) : (forall s a b, sh_update h (sh_update h s a) b = sh_update h s (a ++ b)) -> (forall s, sh_update h s [] = s) -> streams h.
Proof.
  intros A E. assert (G : forall ps s, fold_left (sh_update h) ps s = sh_update h s (concat ps)).
  { induction ps as [|p ps IH]; intros s; cbn [fold_left concat]; [by rewrite E|]. by rewrite IH, A. }
  intros ps ps' Eq. unfold sh_digest. by rewrite !G, Eq.
Qed.
(** A hasher that collects the bytes and applies any function at the end: it streams, and its function is that one. *)
Definition collecting (H : list byte -> bytes32) : hasher (list byte) := Hasher [] (fun s d => s ++ d) H.
Theorem C94_collecting H : streams (collecting H) /\ forall data, sh_hash (collecting H) data = H data.
Proof. split; [|done]. apply C94_local; cbn; intros; [by rewrite app_assoc|by rewrite app_nil_r]. Qed.

(** *** TransparentHasher *)
Lemma overlay_all buf : forall data, length buf <= length data -> overlay buf data = take (length buf) data.
Proof. induction buf as [|b buf IH]; intros [|d data] L; cbn in *; [done|done|lia|]. rewrite IH by lia. done. Qed.
Lemma overlay32_all buf (x : bytes32) : overlay32 buf (b32 x) = x.
Proof. apply b32_inj. cbn. rewrite overlay_all by (rewrite !b32_length; done). apply take_ge. by rewrite !b32_length. Qed.
(** An internal node hashes to the hash of its right child, a leaf to the hash of its value: the left subtree and the key are lost. *)
Theorem C94_transparent_nodes : (forall l r, sh_internal transparent_hasher l r = r) /\ (forall k vh, sh_leaf transparent_hasher k vh = vh) /\ ~ streams transparent_hasher.
Proof.
  assert (I : forall l r, sh_internal transparent_hasher l r = r) by (intros l r; unfold sh_internal; cbn [transparent_hasher sh_new sh_update sh_finalize]; unfold id; by rewrite overlay32_all).
  assert (L : forall k vh, sh_leaf transparent_hasher k vh = vh) by (intros k r; unfold sh_leaf; cbn [transparent_hasher sh_new sh_update sh_finalize]; unfold id; by rewrite overlay32_all).
  split; [exact I|]. split; [exact L|]. intros St. destruct (C94_streams transparent_hasher St) as (_ & _ & E).
  specialize (E SPARSE_MERKLE_PLACEHOLDER_HASH SPARSE_MERKLE_PLACEHOLDER_HASH). rewrite L in E. apply (f_equal (fun x => b32 x)) in E. revert E. vm_compute. discriminate.
Qed.

(** A function that hashes nodes as TransparentHasher does, and everything else that is not as long as a node. *)
Definition last32 (data : list byte) : bytes32 := default SPARSE_MERKLE_PLACEHOLDER_HASH (to_bytes32 (drop (length data - 32) data)).
Definition transparent (data : list byte) : bytes32 := if decide (length data = 77 \/ length data = 80) then last32 data else sh_hash transparent_hasher data.
Lemma last32_app pre (x : bytes32) : last32 (pre ++ b32 x) = x.
Proof. unfold last32. rewrite app_length, b32_length, Nat.add_sub, drop_app, to_bytes32_b32. done. Qed.
Theorem C94_transparent_function : (forall l r, transparent (internal_input l r) = sh_internal transparent_hasher l r) /\ (forall k vh, transparent (leaf_input k vh) = sh_leaf transparent_hasher k vh) /\
  (forall data, length data <> 77 -> length data <> 80 -> transparent data = sh_hash transparent_hasher data).
Proof.
  destruct C94_transparent_nodes as (I & L & _). split; [|split].
  - intros l r. rewrite I. unfold transparent, internal_input. rewrite decide_True; [by rewrite app_assoc, last32_app|]. right. rewrite !app_length, !b32_length. reflexivity.
  - intros l r. rewrite L. unfold transparent, leaf_input. rewrite decide_True; [by rewrite app_assoc, last32_app|]. left. rewrite !app_length, !b32_length. reflexivity.
  - intros data N1 N2. unfold transparent. by rewrite decide_False by lia.
Qed.
(** Two trees over it with different contents have the same root, and the proof that the second gives for a value is accepted for the root of the first, where the key has another value. *)
Theorem C94_transparent_refuted : exists st1 xs1 st2 xs2 root pf, run transparent [Commit [[(K00, Some va); (K80, Some vb)]]] = Ok (st1, xs1) /\ run transparent [Commit [[(K00, Some vc); (K80, Some vb)]]] = Ok (st2, xs2) /\
  get_root_hash transparent (store_reader st1) 0 = Ok root /\ get_root_hash transparent (store_reader st2) 0 = Ok root /\
  get (store_reader st1) K00 0 = Ok (Some va) /\ get_with_proof transparent (store_reader st2) K00 0 = Ok (Some vc, pf) /\ verify_existence transparent pf root K00 vc = Ok tt /\ va <> vc.
Proof.
  assert (Q : match run transparent [Commit [[(K00, Some va); (K80, Some vb)]]], run transparent [Commit [[(K00, Some vc); (K80, Some vb)]]] with
    | Ok (st1, _), Ok (st2, _) => match get_root_hash transparent (store_reader st1) 0, get_root_hash transparent (store_reader st2) 0, get (store_reader st1) K00 0, get_with_proof transparent (store_reader st2) K00 0 with
      | Ok r1, Ok r2, Ok (Some v), Ok (Some w, pf) => bool_decide (r1 = r2) && bool_decide (v = va) && bool_decide (w = vc) && match verify_existence transparent pf r1 K00 vc with Ok _ => true | _ => false end
      | _, _, _, _ => false end
    | _, _ => false end = true) by (vm_compute; reflexivity).
  destruct (run transparent [Commit [[(K00, Some va); (K80, Some vb)]]]) as [[st1 xs1]| |] eqn:R1; [|discriminate Q|discriminate Q].
  destruct (run transparent [Commit [[(K00, Some vc); (K80, Some vb)]]]) as [[st2 xs2]| |] eqn:R2; [|discriminate Q|discriminate Q]. clear R1 R2.
  destruct (get_root_hash transparent (store_reader st1) 0) as [r1| |] eqn:E1; [|discriminate Q|discriminate Q].
  destruct (get_root_hash transparent (store_reader st2) 0) as [r2| |] eqn:E2; [|discriminate Q|discriminate Q].
  destruct (get (store_reader st1) K00 0) as [[v|]| |] eqn:E3; [|discriminate Q..].
  destruct (get_with_proof transparent (store_reader st2) K00 0) as [[[w|] pf]| |] eqn:E4; [|discriminate Q..].
  destruct (verify_existence transparent pf r1 K00 vc) as [[]| |] eqn:E5; [|by rewrite andb_false_r in Q..].
  rewrite andb_true_r in Q. apply andb_prop in Q as [Q Q3]. apply andb_prop in Q as [Q1 Q2]. apply bool_decide_eq_true_1 in Q1, Q2, Q3. subst r2 v w.
  exists st1, xs1, st2, xs2, r1, pf. split; [done|]. split; [done|]. split; [exact E1|]. split; [exact E2|]. split; [exact E3|]. split; [exact E4|]. split; [exact E5|discriminate].
Qed.
