(** C78: a light client that follows a tree by its root hashes only. *)
From Verif Require Import Base Spec NodeType ProofDef TreeCache Tree Mock Driver KeyFacts SmtFacts ProofFacts Canon PutFacts VersionFacts StoreFacts DriverFacts DriverFacts2 ThmProof ThmStore ThmStore2 Demo Toy.
From Coq Require Import Lia.
Local Opaque Spec.smt root_inputs ms_in.

(** What the client is sent: a new root with the writes that led to it and their update proofs; an entry with its proof; an absent key with its proof. *)
Inductive message : Type :=
| MUpdate (r : hash) (ps : list sm_proof) (us : list (key * option value))
| MExist (k : key) (x : value) (p : sm_proof)
| MAbsent (k : key) (p : sm_proof).
Definition is_ok {A} (o : outcome A) : bool := match o with Ok _ => true | _ => false end.
(** Every deletion is proved with a leaf (the client can ask SparseMerkleProof::leaf, types/proof/definition.rs:87): see C16 for those that are not. *)
Definition with_leaves (ps : list sm_proof) (us : list (key * option value)) : bool :=
  forallb (fun pu : sm_proof * (key * option value) => match pu.2.2, p_leaf pu.1 with None, None => false | _, _ => true end) (zip ps us).

Section client.
Context (H : list byte -> bytes32).
(** The client holds a root and nothing else.  What it accepts: *)
Definition accepts (root : hash) (m : message) : bool :=
  match m with
  | MUpdate r ps us => is_ok (verify_update H true ps root r us) && with_leaves ps us
  | MExist k x p => is_ok (verify_existence H p root k x)
  | MAbsent k p => is_ok (verify_nonexistence H p root k)
  end.
Definition next_root (root : hash) (m : message) : hash := match m with MUpdate r _ _ => r | _ => root end.
(** the accepted ones of a list of messages (the others are ignored), and the root the client then holds *)
Fixpoint accepted (root : hash) (l : list message) : list message * hash :=
  match l with
  | [] => ([], root)
  | m :: l' => if accepts root m then let (a, r) := accepted (next_root root m) l' in (m :: a, r) else accepted root l'
  end.
End client.

(** Specification: the messages are true, one after the other, of the contents [m] and what the updates make of them. *)
Definition contents_after (m : gmap key value) (a : message) : gmap key value := match a with MUpdate _ _ us => apply_set m us | _ => m end.
Definition true_of (H : list byte -> bytes32) (m : gmap key value) (a : message) : Prop :=
  match a with
  | MUpdate r _ us => r = smt_root H (apply_set m us)
  | MExist k x _ => m !! k = Some x
  | MAbsent k _ => m !! k = None
  end.
Fixpoint all_true (H : list byte -> bytes32) (m : gmap key value) (l : list message) : Prop :=
  match l with [] => True | a :: l' => true_of H m a /\ all_true H (contents_after m a) l' end.
(** the inputs hashed: to build the trees of the contents and to check the messages *)
Definition message_inputs (H : list byte -> bytes32) (m : gmap key value) (a : message) : list (list byte) :=
  match a with
  | MUpdate _ ps us => update_inputs H m ps us
  | MExist k x p => x :: root_inputs H m ++ proof_inputs H k p
  | MAbsent k p => root_inputs H m ++ proof_inputs H k p
  end.
Fixpoint all_inputs (H : list byte -> bytes32) (m : gmap key value) (l : list message) : list (list byte) :=
  match l with [] => [] | a :: l' => message_inputs H m a ++ all_inputs H (contents_after m a) l' end.

Section thm.
Context (H : list byte -> bytes32).
Lemma is_ok_tt (o : outcome unit) : is_ok o = true -> o = Ok tt.
Proof. destruct o as [[]| |]; done. Qed.
Lemma with_leaves_spec ps : forall us, with_leaves ps us = true -> forall i p (u : key * option value), ps !! i = Some p -> us !! i = Some u -> u.2 = None -> p_leaf p <> None.
Proof.
  unfold with_leaves. induction ps as [|p0 ps IH]; intros [|u0 us] E [|i] p u; cbn [lookup list_lookup]; try done; cbn [zip zip_with forallb fst snd] in E; apply andb_true_iff in E as [E0 E].
  - intros [= <-] [= <-] Eu Ep. by rewrite Eu, Ep in E0.
  - intros E1 E2. by eapply (IH us).
Qed.

(** *** C78: whatever a server sends, what the client accepts is true of the contents that the accepted updates make of the contents it began with,
    and it then holds their root - or two different inputs with the same hash, or one that hashes to the placeholder, are at hand. *)
Theorem C78_follow_sound (m : gmap key value) (l : list message) :
  let (a, r) := accepted H (smt_root H m) l in
  (all_true H m a /\ r = smt_root H (fold_left contents_after a m)) \/ hash_broken H (all_inputs H m a).
Proof.
  revert m. induction l as [|x l IH]; intros m; cbn [accepted]; [by left|]. destruct (accepts H (smt_root H m) x) eqn:Ea; [|apply IH].
  assert (T : true_of H m x \/ hash_broken H (message_inputs H m x)).
  { destruct x as [r ps us|k y p|k p]; cbn [accepts] in Ea; cbn [true_of message_inputs].
    - apply andb_true_iff in Ea as [E1 E2]. apply is_ok_tt in E1. eapply C15_update_soundness; [exact E1|]. by apply with_leaves_spec.
    - apply is_ok_tt in Ea. by apply C08_existence_soundness.
    - apply is_ok_tt in Ea. by apply C09_nonexistence_soundness. }
  destruct T as [T|B].
  - assert (En : next_root (smt_root H m) x = smt_root H (contents_after m x)) by (by destruct x). rewrite En. specialize (IH (contents_after m x)). destruct (accepted H _ l) as [a r].
    destruct IH as [[A R]|B]; [left|right]; [done|]. cbn [all_inputs]. eapply broken_mono; [|exact B]. intros y Hy. apply elem_of_app. by right.
  - destruct (accepted H _ l) as [a r]. right. cbn [all_inputs]. eapply broken_mono; [|exact B]. intros y Hy. apply elem_of_app. by left.
Qed.

(** *** ... and a client of an honest server follows the whole history: what the server sends of a history committed with proofs *)
Definition feed_op (o : op) (x : out) : list message :=
  match o, x with
  | CommitP sets, OutCommitP rp _ => zip_with (fun (s : value_set) (x : hash * list sm_proof) => MUpdate x.1 x.2 s) sets rp
  | _, _ => []
  end.
Definition feed (ops : list op) (xs : list out) : list message := concat (zip_with feed_op ops xs).
(** every deletion finds its key *)
Fixpoint effective (m : gmap key value) (us : value_set) : Prop :=
  match us with [] => True | u :: us' => (u.2 = None -> is_Some (m !! u.1)) /\ effective (apply_write m u) us' end.

Lemma pfs_leaves (s : value_set) : forall (m : gmap key value) pfs, pfs_ok H (H <$> m) s pfs -> effective m s -> with_leaves pfs s = true.
Proof.
  induction s as [|[k w] s IH]; intros m [|p pfs]; cbn [pfs_ok effective fst snd]; try done. intros [Hp P] [He E]. unfold with_leaves in *. cbn [zip zip_with forallb fst snd].
  apply andb_true_iff. split; [|apply (IH (apply_write m (k, w))); [|done]; by rewrite fmap_apply_write]. destruct w as [x|]; [done|]. destruct (He eq_refl) as [x Ex].
  assert (Eh : (H <$> m) !! k = Some (H x)) by (by rewrite lookup_fmap, Ex). rewrite decide_False in Hp by (intros [_ Z]; congruence). destruct Hp as (n & T & ->). rewrite hproof_leaf.
  destruct (term_cases _ _ _ T) as [(_ & _ & C)|(k' & h' & _ & -> & _)]; [congruence|done].
Qed.
Lemma pfss_leaves sets : forall (m : gmap key value) pfss, pfss_ok H (H <$> m) sets pfss -> forall i s pfs, sets !! i = Some s -> pfss !! i = Some pfs ->
  effective (apply_sets m (take i sets)) s -> with_leaves pfs s = true.
Proof.
  induction sets as [|s0 sets IH]; intros m [|p0 pfss]; cbn [pfss_ok]; try done. intros [P Ps] [|i] s pfs; cbn [lookup list_lookup].
  - intros [= <-] [= <-]. by apply pfs_leaves.
  - intros Es Ep. cbn [take apply_sets fold_left]. rewrite mset_fmap in Ps. by eapply (IH (apply_set m s0)).
Qed.
Lemma accepted_app l1 : forall root l2, accepted H root (l1 ++ l2) = let (a1, r1) := accepted H root l1 in let (a2, r2) := accepted H r1 l2 in (a1 ++ a2, r2).
Proof.
  induction l1 as [|x l1 IH]; intros root l2; cbn [app accepted]; [by destruct (accepted H root l2)|]. destruct (accepts H root x); [|apply IH]. rewrite IH.
  destruct (accepted H (next_root root x) l1) as [a1 r1]. by destruct (accepted H r1 l2).
Qed.
Lemma accepted_all (R : nat -> hash) l : forall j, (forall i x, l !! i = Some x -> accepts H (R (j + i)) x = true /\ next_root (R (j + i)) x = R (j + S i)) -> accepted H (R j) l = (l, R (j + length l)).
Proof.
  induction l as [|x l IH]; intros j A; cbn [accepted length]; [by rewrite Nat.add_0_r|]. destruct (A 0 x eq_refl) as [A1 A2]. rewrite Nat.add_0_r in A1, A2. rewrite A1, A2.
  rewrite Nat.add_1_r, IH; [by rewrite Nat.add_succ_comm|]. intros i y Ey. rewrite !Nat.add_succ_comm. by apply A.
Qed.
Lemma run_snoc_outs ops o st xs : run H (ops ++ [o]) = Ok (st, xs) -> exists st1 xs1 x, run H ops = Ok (st1, xs1) /\ step H st1 (num_versions ops) o = Ok (st, x) /\ xs = xs1 ++ [x] /\ length xs1 = length ops.
Proof.
  intros R. pose proof R as R0. unfold run in R. rewrite run_from_app in R. fold (run H ops) in R. destruct (run H ops) as [[st1 xs1]| |] eqn:R1; [|done..]. rewrite bind_Ok in R.
  cbn [run_from] in R. rewrite N.add_0_l in R. destruct (step H st1 (num_versions ops) o) as [[st2 x]| |] eqn:E; [|done..]. rewrite !bind_Ok in R.
  injection R as -> <-. exists st1, xs1, x. split; [done|]. split; [done|]. split; [done|]. apply run_inv in R1 as [O _]. revert O. generalize (@nil value_set). generalize tb0. clear. revert xs1.
  induction ops as [|o ops IH]; intros [|x xs] tb h; cbn [outs_ok]; try done. intros [_ O]. cbn [length]. f_equal. by eapply IH.
Qed.

(** A client that starts with the root of the empty tree and is sent the outputs of the commits accepts all of them and ends with the root of the latest version,
    provided that keys are only deleted when they are there. *)
Theorem C78_follow_complete (ops : list op) st xs : run H ops = Ok (st, xs) -> (forall sets, Commit sets ∉ ops) ->
  (forall i s, history ops !! i = Some s -> effective (contents_before (history ops) i) s) ->
  accepted H SPARSE_MERKLE_PLACEHOLDER_HASH (feed ops xs) = (feed ops xs, smt_root H (last_contents (history ops))) /\
  length (feed ops xs) = length (history ops).
Proof.
  revert st xs. induction ops as [|o ops IH] using rev_ind; intros st xs R Nc Ef.
  { injection R as <- <-. cbn. unfold smt_root. by rewrite fmap_empty, map_to_list_empty. }
  apply run_snoc_outs in R as (st1 & xs1 & x & R & St & -> & Lx). unfold feed. rewrite zip_with_app by done. rewrite concat_app. fold (feed ops xs1). cbn [zip_with concat]. rewrite app_nil_r.
  assert (Eh : history (ops ++ [o]) = history ops ++ op_sets o) by (unfold history; rewrite flat_map_app; cbn; by rewrite app_nil_r).
  destruct (IH st1 xs1 R) as [IA IL].
  { intros sets Hs. apply (Nc sets). apply elem_of_app. by left. }
  { intros i s Es. assert (L : i < length (history ops)) by (by eapply lookup_lt_Some). specialize (Ef i s). rewrite Eh in Ef. rewrite lookup_app_l in Ef by done. specialize (Ef Es).
    unfold contents_before in *. by rewrite take_app_le in Ef by lia. }
  rewrite accepted_app, IA, Eh. destruct o as [sets|sets|l].
  - destruct (Nc sets). apply elem_of_app. right. by left.
  - cbn [step] in St. destruct (put_value_sets_with_proof H (store_reader st1) sets (num_versions ops)) as [[rp b]| |] eqn:P; [|done..]. rewrite bind_Ok in St.
    destruct (write_tree_update_batch st1 b) as [st2| |]; [|done..]. rewrite bind_Ok in St. injection St as -> <-. cbn [feed_op op_sets].
    set (R0 := fun i => smt_root H (contents_before (history ops ++ sets) (length (history ops) + i))).
    assert (E0 : smt_root H (last_contents (history ops)) = R0 0). { unfold R0, contents_before, last_contents. by rewrite Nat.add_0_r, take_app. }
    pose proof R as R'. apply run_inv in R' as [_ S]. destruct (commit_batch H _ _ _ _ _ sets S) as (_ & b' & pfss & P1 & P2 & P3 & P4). unfold num_versions in P. rewrite P2 in P. injection P as <- <-.
    pose proof (si_bmap _ _ _ _ _ _ S) as Eb. rewrite Eb in P4.
    set (l := zip_with _ sets _). assert (A : forall i x, l !! i = Some x -> accepts H (R0 i) x = true /\ next_root (R0 i) x = R0 (Datatypes.S i)).
    { intros i y Ey. unfold l in Ey. rewrite lookup_zip_with in Ey. apply bind_Some in Ey as (s & Es & Ey). apply bind_Some in Ey as ([r pfs] & Er & [= <-]). cbn [fst snd].
      destruct (C14_update_proofs_verify H true ops st1 xs1 sets _ _ i s r pfs R P2 Es Er) as [Vr V]. cbn [accepts next_root]. unfold R0 at 1. rewrite V. cbn [is_ok andb].
      rewrite (lookup_zip_with pair) in Er. apply bind_Some in Er as (r' & Er & Ep). apply bind_Some in Ep as (p' & Ep & [= -> ->]).
      split; [|unfold R0; rewrite Vr; do 2 f_equal; lia].
      apply (pfss_leaves sets _ _ P4 i s pfs Es Ep). specialize (Ef (length (history ops) + i) s). rewrite Eh in Ef. cbn [op_sets] in Ef. rewrite lookup_app_r in Ef by lia.
      replace (length (history ops) + i - length (history ops)) with i in Ef by lia. specialize (Ef Es). unfold contents_before in Ef. rewrite take_app_ge in Ef by lia. replace (length (history ops) + i - length (history ops)) with i in Ef by lia. unfold apply_sets in *. rewrite fold_left_app in Ef. exact Ef. }
    rewrite E0. rewrite (accepted_all R0 l 0) by (intros i y Ey; apply (A i y Ey)). cbn [Nat.add].
    assert (Ll : length l = length sets).
    { unfold l. rewrite zip_with_length, zip_with_length, map_length. rewrite trn_length, (pfss_ok_length _ _ _ _ P4). lia. }
    split; [|rewrite !app_length; lia]. f_equal. unfold R0, contents_before, last_contents. f_equal. rewrite Ll. by rewrite take_ge by (rewrite app_length; lia).
  - cbn [step] in St. destruct (purge_stale_nodes st1 l) as [st2| |]; [|done..]. rewrite bind_Ok in St. injection St as -> <-. cbn [feed_op op_sets accepted]. by rewrite !app_nil_r.
Qed.
(** ... and then every answer of the server about the latest version. *)
Theorem C78_follow_reads (ops : list op) st xs (k : key) ov p : run H ops = Ok (st, xs) -> num_versions ops <> 0%N ->
  get_with_proof H (store_reader st) k (num_versions ops - 1) = Ok (ov, p) ->
  accepts H (smt_root H (last_contents (history ops))) (match ov with Some x => MExist k x p | None => MAbsent k p end) = true.
Proof.
  intros R Nz G. pose proof (latest_readable ops Nz) as L. assert (Er : get_root_hash H (store_reader st) (num_versions ops - 1) = Ok (smt_root H (last_contents (history ops)))).
  { destruct (C03_root_hash H _ _ _ _ R L) as [-> _]. unfold contents_at, last_contents. rewrite take_ge by (unfold num_versions in *; lia). done. }
  destruct ov as [x|]; cbn [accepts].
  - destruct (C06_existence_complete H ops st xs k _ x p R L G) as (r & Er' & V). rewrite Er in Er'. apply Ok_inj in Er'. subst r. by rewrite V.
  - destruct (C07_nonexistence_complete H ops st xs k _ p R L G) as (r & Er' & V). rewrite Er in Er'. apply Ok_inj in Er'. subst r. by rewrite V.
Qed.
End thm.

(** A history to follow: two versions in one batch, the second deletes an entry; a purge; a third version overwrites one entry and adds one. *)
Definition followed : list op :=
  [ CommitP [ [(K00, Some va); (K80, Some vb)]; [(K00, None)] ]; Purge 1; CommitP [ [(K80, Some va); (KC0, Some vc)] ] ].
Theorem followed_accepted (H : list byte -> bytes32) st xs : run H followed = Ok (st, xs) ->
  accepted H SPARSE_MERKLE_PLACEHOLDER_HASH (feed followed xs) = (feed followed xs, smt_root H {[ K80 := va; KC0 := vc ]}) /\ length (feed followed xs) = 3.
Proof.
  intros R. assert (E : last_contents (history followed) = {[ K80 := va; KC0 := vc ]}) by (apply (bool_decide_eq_true_1 _); vm_compute; reflexivity). rewrite <- E.
  change 3 with (length (history followed)). apply (C78_follow_complete H followed st xs R).
  - intros sets Hs. unfold followed in Hs. rewrite !elem_of_cons, elem_of_nil in Hs. destruct Hs as [|[|[|]]]; done.
  - intros i s. unfold followed. cbn [history flat_map op_sets app]. destruct i as [|[|[|i]]]; cbn [lookup list_lookup]; intros [= <-]; cbn [effective fst snd]; [split; [discriminate|]; split; [discriminate|exact I]| |split; [discriminate|]; split; [discriminate|exact I]].
    split; [|exact I]. intros _. apply (bool_decide_eq_true_1 _). vm_compute. reflexivity.
Qed.
(** By computation with the hash function of Toy.v: all three updates are accepted, also when each comes with a forged one (the root of another update,
    or other writes than those proved) before it. *)
Definition forge (a : message) : list message :=
  match a with MUpdate r ps us => [MUpdate (smt_root toy {[ K00 := vc ]}) ps us; MUpdate r ps (map (fun u => (u.1, Some vc)) us)] | _ => [] end.
Example followed_forged : match run toy followed with
  | Ok (_, xs) => let (a, r) := accepted toy SPARSE_MERKLE_PLACEHOLDER_HASH (flat_map (fun a => forge a ++ [a]) (feed followed xs)) in
      bool_decide (r = smt_root toy {[ K80 := va; KC0 := vc ]}) && (length a =? 3)
  | _ => false
  end = true.
Proof. vm_compute. reflexivity. Qed.
