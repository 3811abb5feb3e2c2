(** C31, C32: range proofs.  [left_hashes], [path_ends] are defined in SpecRange.v. *)
From Coq Require Import Strings.String.
From Verif Require Import Base Spec SpecRange NodeType ProofDef TreeCache Tree Mock Driver KeyFacts SmtFacts ProofFacts KeyOrder OrderFacts DriverFacts ThmProof ThmStore ThmStore2 Demo RangeFacts.
From Coq Require Import Lia.
Local Opaque Spec.smt root_inputs ms_in.

Section thm.
Context (H : list byte -> bytes32).

Lemma range_from_proof (ovf : bool) (rd : reader) (m : gmap key value) v k x n : m !! k = Some x -> term (H <$> m) k n ->
  get_with_proof H rd k v = Ok (m !! k, hproof H (H <$> m) k n) ->
  exists p, get_range_proof H rd k v = Ok p /\ path_ends m k n /\ range_verify H ovf p (smt_root H m) (LeafNode k (H x)) (left_hashes H m k n) = Ok tt.
Proof.
  intros E T Ep. pose proof T as (Hn & _). unfold get_range_proof. rewrite Ep, E, bind_Ok. cbn [ensure_]. rewrite bind_Ok.
  eexists. split; [reflexivity|]. split; [by apply (path_ends_term H)|].
  rewrite hproof_sibs, rev_involutive, turns_keys by done. unfold range_verify. cbn [right_siblings ln_key].
  rewrite left_hashes_lsib, !map_length, turns_length by done. rewrite usub_ok by lia. rewrite bind_Ok, rev_bits_skip_rev, loop_complete, bind_Ok by done.
  rewrite bool_decide_true; [done|]. rewrite <- ms_nil, <- (term_climb H _ _ _ T). f_equal.
  destruct (term_cases _ _ _ T) as [(_ & _ & C)|(k' & h & _ & -> & C2 & C3 & C4)]; [by rewrite lookup_fmap, E in C|].
  destruct (decide (k' = k)) as [->|Ne]; [|specialize (C4 Ne); by rewrite lookup_fmap, E in C4].
  rewrite lookup_fmap, E in C2. injection C2 as <-. done.
Qed.
(** C31: in both build profiles. *)
Theorem C31_range_proof_verifies (ovf : bool) (ops : list op) st xs (v : version) (k : key) (x : value) :
  run H ops = Ok (st, xs) -> readable ops v -> get (store_reader st) k v = Ok (Some x) ->
  exists p r n, get_range_proof H (store_reader st) k v = Ok p /\ get_root_hash H (store_reader st) v = Ok r /\
    path_ends (contents_at (history ops) v) k n /\
    range_verify H ovf p r (LeafNode k (H x)) (left_hashes H (contents_at (history ops) v) k n) = Ok tt.
Proof.
  intros R L E. rewrite (C01_get H _ _ _ _ _ R) in E. apply Ok_inj in E. set (m := contents_at (history ops) v) in *.
  destruct (read_proof H ops st xs v k R L) as (n & T & Ep). destruct (read_root H ops st xs v R L) as [Er _]. fold m in Ep, T, Er.
  destruct (range_from_proof ovf _ m v k x n E T Ep) as (p & P1 & P2 & P3). exists p, (smt_root H m), n. done.
Qed.
(** ... and fails with an error for an absent key. *)
Theorem C31_range_proof_absent (ops : list op) st xs (v : version) (k : key) :
  run H ops = Ok (st, xs) -> readable ops v -> get (store_reader st) k v = Ok None ->
  exists e, get_range_proof H (store_reader st) k v = Err e.
Proof.
  intros R L E. rewrite (C01_get H _ _ _ _ _ R) in E. apply Ok_inj in E.
  destruct (read_proof H ops st xs v k R L) as (n & T & Ep). unfold get_range_proof. rewrite Ep, E, bind_Ok. cbn [ensure_]. eauto.
Qed.
(** The left hashes are determined by the smaller keys, the right ones by the greater keys. *)
Theorem C31_left_from_smaller (m m' : gmap key value) (k : key) (n : nat) : n <= 256 ->
  (forall k', key_lt k' k -> m !! k' = m' !! k') -> left_hashes H m k n = left_hashes H m' k n.
Proof.
  intros Hn E. unfold left_hashes. apply map_ext_in. intros i Hi%elem_of_list_In. apply turns_lt in Hi as [Hi B]. unfold beside_hash. do 3 f_equal.
  apply map_eq. intros k'. apply option_eq. intros x. unfold leaving. rewrite !map_filter_lookup_Some. cbn [fst]. rewrite B. cbn [negb].
  split; intros (A & P & Q); (split; [|done]); [rewrite <- E|rewrite E]; try done; by eapply (key_lt_bit k' k i); [lia| | |].
Qed.
Theorem C31_right_from_greater (m m' : gmap key value) (k : key) (n : nat) : n <= 256 ->
  (forall k', key_lt k k' -> m !! k' = m' !! k') -> right_hashes H m k n = right_hashes H m' k n.
Proof.
  intros Hn E. unfold right_hashes. apply map_ext_in. intros i Hi%elem_of_list_In. apply turns_lt in Hi as [Hi B]. unfold beside_hash. do 3 f_equal.
  apply map_eq. intros k'. apply option_eq. intros x. unfold leaving. rewrite !map_filter_lookup_Some. cbn [fst]. rewrite B. cbn [negb].
  split; intros (A & P & Q); (split; [|done]); [rewrite <- E|rewrite E]; try done; by eapply (key_lt_bit k k' i); [lia|symmetry| |].
Qed.

(** C32: adversarial range proofs and left siblings, at most 256 of them in all (more panic when overflow
    checks are on, see below): the leaf is in the map, the left siblings are exactly the hashes of the
    subtrees to the left of its path, and the right siblings those to its right. *)
Theorem C32_range_sound (ovf : bool) (m : gmap key value) (p : range_proof) (lf : leaf_node) (left_siblings : list hash) :
  length left_siblings + length (right_siblings p) <= 256 ->
  range_verify H ovf p (smt_root H m) lf left_siblings = Ok tt ->
  (exists x n, m !! ln_key lf = Some x /\ ln_vh lf = H x /\ path_ends m (ln_key lf) n /\
     left_siblings = left_hashes H m (ln_key lf) n /\ map (sm_hash H) (right_siblings p) = right_hashes H m (ln_key lf) n) \/
  hash_broken H (root_inputs H m ++ range_inputs H lf left_siblings p).
Proof.
  intros L E. unfold range_verify in E. rewrite usub_ok, bind_Ok in E by lia. rewrite rev_bits_skip_rev in E by done.
  rewrite bind_ok in E. destruct E as (r & E & Er). apply ensure_ok, bool_decide_eq_true in Er. subst r. rewrite <- ms_nil in E.
  set (qs := root_inputs H m ++ range_inputs H lf left_siblings p). set (n := length left_siblings + length (right_siblings p)) in *.
  destruct (loop_sound H qs (H <$> m) (ln_key lf) n left_siblings (right_siblings p) (leaf_hash H lf) L eq_refl) as [|(E1 & E2 & E3 & E4 & E5)]; [| |exact E|by right|].
  { intros y Hy%ms_in_root. unfold qs. inq. } { intros y Hy. apply elem_of_app. right. apply elem_of_list_further. exact Hy. }
  change (leaf_hash H lf) with (sm_hash H (SMLeaf lf)) in E4.
  apply (sm_hash_inj H qs) in E4; [|intros y Hy; cbn in Hy; apply elem_of_list_singleton in Hy as ->; apply elem_of_app; right; apply elem_of_list_here|done].
  destruct E4 as [E4|]; [|by right]. left.
  destruct (size_cases (under (kpre n (ln_key lf)) (H <$> m))) as [Eu|[(k' & h & Eu)|Hm]];
    [by rewrite (smt_node_empty _ _ _ Eu) in E4| |by rewrite (smt_node_many _ _ _ Hm) in E4].
  rewrite (smt_node_single _ _ _ _ _ Eu) in E4. injection E4 as E4. subst lf. cbn [ln_key ln_vh] in *.
  assert (Eu' : under (kpre n k') (H <$> m) !! k' = Some h) by (rewrite Eu; apply lookup_singleton). apply under_lookup in Eu' as [Eu' _].
  rewrite lookup_fmap in Eu'. apply fmap_Some in Eu' as (x & Ex & ->). exists x, n. split; [done|]. split; [done|].
  split; [apply (path_ends_term H); split; [done|]; split; [rewrite Eu, map_size_singleton; lia|exact E5]|].
  rewrite left_hashes_lsib, right_hashes_hsib by done. split; [done|]. by rewrite E2.
Qed.
(** With overflow checks, more than 256 siblings panic; *)
Theorem C32_too_many_panics (p : range_proof) (r : hash) (lf : leaf_node) (left_siblings : list hash) :
  256 < length left_siblings + length (right_siblings p) -> range_verify H true p r lf left_siblings = Panic.
Proof. intros L. unfold range_verify. rewrite usub_panic by lia. done. Qed.
(** without them, 256 minus their number wraps around, all of them are ignored, and any siblings are accepted
    for the only leaf of a map with one key.  The leaf is still in the map. *)
Theorem C32_too_many_accepted (p : range_proof) (k : key) (x : value) (left_siblings : list hash) :
  256 < length left_siblings + length (right_siblings p) -> (N.of_nat (length left_siblings + length (right_siblings p)) <= usize_mod - 1)%N ->
  range_verify H false p (smt_root H {[ k := x ]}) (LeafNode k (H x)) left_siblings = Ok tt.
Proof.
  intros L B. unfold range_verify, usub. destruct (N.leb_spec (N.of_nat (length left_siblings + length (right_siblings p))) 256); [lia|].
  rewrite bind_Ok. unfold rev_bits_skip. assert (usize_mod = 18446744073709551616)%N as U by reflexivity.
  destruct (N.leb_spec (256 + usize_mod - N.of_nat (length left_siblings + length (right_siblings p))) 256); [lia|].
  cbn [range_loop]. rewrite bind_Ok, bool_decide_true; [done|]. rewrite <- ms_nil, map_fmap_singleton. symmetry. apply ms_single. by rewrite under_nil.
Qed.
Theorem C32_too_many_leaf_sound (m : gmap key value) (p : range_proof) (lf : leaf_node) (left_siblings : list hash) :
  256 < length left_siblings + length (right_siblings p) -> (N.of_nat (length left_siblings + length (right_siblings p)) <= usize_mod - 1)%N ->
  range_verify H false p (smt_root H m) lf left_siblings = Ok tt ->
  (exists x, m = {[ ln_key lf := x ]} /\ ln_vh lf = H x) \/ hash_broken H (leaf_input (ln_key lf) (ln_vh lf) :: root_inputs H m).
Proof.
  intros L B E. assert (usize_mod = 18446744073709551616)%N as U by reflexivity.
  unfold range_verify, usub in E. destruct (N.leb_spec (N.of_nat (length left_siblings + length (right_siblings p))) 256); [lia|].
  rewrite bind_Ok in E. unfold rev_bits_skip in E.
  destruct (N.leb_spec (256 + usize_mod - N.of_nat (length left_siblings + length (right_siblings p))) 256); [lia|].
  cbn [range_loop] in E. rewrite bind_Ok in E. apply ensure_ok, bool_decide_eq_true in E. rewrite <- ms_nil in E.
  change (leaf_hash H lf) with (sm_hash H (SMLeaf lf)) in E.
  apply (sm_hash_inj H (leaf_input (ln_key lf) (ln_vh lf) :: root_inputs H m)) in E;
    [|intros y Hy; cbn in Hy; apply elem_of_list_singleton in Hy as ->; apply elem_of_list_here|intros y Hy%ms_in_root; inq].
  destruct E as [E|]; [|by right]. left.
  destruct (size_cases (under [] (H <$> m))) as [Eu|[(k' & h & Eu)|Hm]];
    [by rewrite (smt_node_empty _ _ _ Eu) in E| |by rewrite (smt_node_many _ _ _ Hm) in E].
  rewrite (smt_node_single _ _ _ _ _ Eu) in E. injection E as ->. rewrite under_nil in Eu. cbn [ln_key ln_vh].
  assert (X : (H <$> m) !! k' = Some h) by (rewrite Eu; apply lookup_singleton). rewrite lookup_fmap in X. apply fmap_Some in X as (x & Ex & ->).
  exists x. split; [|done]. apply map_eq. intros k. destruct (decide (k = k')) as [->|Ne]; [by rewrite lookup_singleton|].
  rewrite lookup_singleton_ne by done. apply (f_equal (lookup k)) in Eu. rewrite lookup_fmap, lookup_singleton_ne in Eu by done. by destruct (m !! k).
Qed.

(** The demo history: version 4 holds K00, K80, KC0; the range proof up to K80 has one left sibling, the leaf K00. *)
Example demo_range ovf st xs : run H demo = Ok (st, xs) -> exists p r, get_range_proof H (store_reader st) K80 4 = Ok p /\
  get_root_hash H (store_reader st) 4 = Ok r /\ range_verify H ovf p r (LeafNode K80 (H va)) [leaf_hash H (LeafNode K00 (H vb))] = Ok tt.
Proof.
  intros R. destruct (C31_range_proof_verifies ovf demo st xs 4 K80 va R) as (p & r & n & E1 & E2 & E3 & E4);
    [apply demo_readable|rewrite (C01_get H demo st xs) by done; vm_compute; reflexivity|].
  exists p, r. split; [done|]. split; [done|]. pose proof demo_contents as (_ & _ & _ & _ & E). rewrite E in E3, E4.
  assert (n = 2) as ->.
  { assert (X : path_ends {[ K00 := vb; K80 := va; KC0 := vc ]} K80 2).
    { split; [lia|]. split; [apply (bool_decide_unpack _); vm_compute; exact I|]. intros [|[|i]] Hi; [| |lia]; apply (bool_decide_unpack _); vm_compute; exact I. }
    apply (path_ends_term H) in E3, X. by eapply term_unique. }
  replace (left_hashes H {[ K00 := vb; K80 := va; KC0 := vc ]} K80 2) with [leaf_hash H (LeafNode K00 (H vb))] in E4; [done|].
  unfold left_hashes. replace (turns true K80 2) with [0] by (vm_compute; reflexivity). cbn [map]. unfold beside_hash.
  replace (leaving {[ K00 := vb; K80 := va; KC0 := vc ]} K80 0) with ({[ K00 := vb ]} : gmap key value) by (apply (bool_decide_unpack _); vm_compute; exact I).
  rewrite map_fmap_singleton, map_to_list_singleton. with_strategy transparent [Spec.smt] reflexivity.
Qed.
End thm.
