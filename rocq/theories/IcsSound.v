(** Soundness of the ICS23 verifier with ics23_spec() against the sparse Merkle root: an accepted existence proof is the
    honest one, an accepted non-existence proof is about an absent key, or the hash function is broken on the inputs
    hashed. *)
From Verif Require Import Base Spec NodeType ProofDef KeyFacts SmtFacts ProofFacts OrderFacts Ics23 Ics23Verify IcsFacts ThmProof.
From Coq Require Import Lia.
Local Opaque Spec.smt.

Section inputs.
Context (H : list byte -> bytes32).
(** Everything the verifier hashes when it checks [e] against ics23_spec(): the key, the value, the leaf and the inner
    nodes. *)
Definition leaf_data (lf : leaf_op) (k v : list byte) : list byte := lo_prefix lf ++ b32 (H k) ++ b32 (H v).
Fixpoint path_inputs (path : list inner_op) (h : list byte) : list (list byte) :=
  match path with
  | [] => []
  | op :: path' => let d := io_prefix op ++ h ++ io_suffix op in d :: path_inputs path' (b32 (H d))
  end.
Definition exist_inputs (e : exist_proof) : list (list byte) :=
  ep_key e :: ep_value e ::
  match ep_leaf e with
  | Some lf => let d := leaf_data lf (ep_key e) (ep_value e) in d :: path_inputs (ep_path e) (b32 (H d))
  | None => []
  end.
Definition nonexist_inputs (n : nonexist_proof) : list (list byte) :=
  from_option exist_inputs [] (ne_left n) ++ from_option exist_inputs [] (ne_right n).
End inputs.

Lemma has_prefix_spec p : forall l, has_prefix p l = true <-> exists r, l = p ++ r.
Proof.
  induction p as [|a p IH]; intros l; cbn [has_prefix]. { split; [by exists l|done]. }
  destruct l as [|b l]. { split; [done|by intros []]. }
  rewrite andb_true_iff, bool_decide_eq_true, IH. split.
  - intros [-> [r ->]]. by exists r.
  - intros [r [= -> ->]]. eauto.
Qed.
Lemma has_prefix_app p a b r : p ++ r = a ++ b -> length p <= length a -> has_prefix p a = true.
Proof.
  intros E L. apply has_prefix_spec. exists (drop (length p) a). apply (f_equal (take (length p))) in E.
  rewrite take_app, take_app_le in E by done. rewrite E at 1. by rewrite take_drop.
Qed.
Lemma app_split_len {A} (a b c d : list A) : a ++ b = c ++ d -> length a = length c -> a = c /\ b = d.
Proof. intros E L. by apply app_inj_1. Qed.

Section sound.
Context (H : list byte -> bytes32).
Implicit Types M : gmap key vhash.
Notation ms := (ms H).
Notation isp := (ps_inner ics23_spec).

Lemma ensure_inner_inv op : ensure_inner ics23_spec op = true ->
  io_hash op = Sha256 /\ has_prefix LEAF_DOMAIN_SEPARATOR (io_prefix op) = false /\ 16 <= length (io_prefix op) <= 48 /\ (length (io_suffix op) mod 32 = 0).
Proof.
  unfold ensure_inner. rewrite !andb_true_iff, negb_true_iff, bool_decide_eq_true, !Nat.leb_le, Nat.eqb_eq. intros ((((A & B) & C) & D) & E).
  repeat split; done.
Qed.
Lemma ensure_leaf_inv lf : ensure_leaf lf (ps_leaf ics23_spec) = true ->
  lo_hash lf = Sha256 /\ lo_prehash_key lf = Sha256 /\ lo_prehash_value lf = Sha256 /\ lo_length lf = NoPrefix /\ exists r, lo_prefix lf = LEAF_DOMAIN_SEPARATOR ++ r.
Proof.
  unfold ensure_leaf. rewrite !andb_true_iff, !bool_decide_eq_true, has_prefix_spec. intros ((((A & B) & C) & D) & E). done.
Qed.
Lemma apply_leaf_inv lf k v h : ensure_leaf lf (ps_leaf ics23_spec) = true -> apply_leaf H lf k v = Some h ->
  k <> [] /\ v <> [] /\ h = b32 (H (leaf_data H lf k v)).
Proof.
  intros (E1 & E2 & E3 & E4 & _)%ensure_leaf_inv. unfold apply_leaf, prepare_leaf_data. rewrite E1, E2, E3, E4.
  destruct k as [|k0 k]; [done|]. destruct v as [|v0 v]; [done|]. cbn [length Nat.eqb negb guard_ mbind option_bind do_hash do_length].
  intros [= <-]. done.
Qed.
Lemma apply_inner_inv op c h : io_hash op = Sha256 -> apply_inner H op c = Some h -> h = b32 (H (io_prefix op ++ c ++ io_suffix op)).
Proof. intros E. unfold apply_inner. rewrite E. destruct (guard_ _); [|done]. cbn [mbind option_bind do_hash]. by intros [= <-]. Qed.
Lemma apply_path_app l1 : forall l2 h, apply_path H (l1 ++ l2) h = (h' ← apply_path H l1 h; apply_path H l2 h').
Proof.
  induction l1 as [|op l1 IH]; intros l2 h; [done|]. cbn [app apply_path]. destruct (apply_inner H op h) as [h'|]; [|done]. cbn [mbind option_bind]. apply IH.
Qed.
Lemma path_inputs_app l1 : forall l2 h h', forallb (ensure_inner ics23_spec) l1 = true -> apply_path H l1 h = Some h' ->
  path_inputs H (l1 ++ l2) h = path_inputs H l1 h ++ path_inputs H l2 h'.
Proof.
  induction l1 as [|op l1 IH]; intros l2 h h' F E; [by injection E as <-|]. cbn [app apply_path path_inputs forallb] in *. apply andb_true_iff in F as [F1 F2].
  destruct (apply_inner H op h) as [h2|] eqn:E2; [|done]. cbn [mbind option_bind] in E. apply apply_inner_inv in E2; [|apply (ensure_inner_inv _ F1)]. subst h2.
  rewrite (IH l2 _ h') by done. done.
Qed.
Lemma apply_path_b32 l : forall h r, forallb (ensure_inner ics23_spec) l = true -> apply_path H l (b32 h) = Some r -> exists h', r = b32 h'.
Proof.
  induction l as [|op l IH]; intros h r F E. { injection E as <-. by eexists. }
  cbn [apply_path forallb] in *. apply andb_true_iff in F as [F1 F2]. destruct (apply_inner H op (b32 h)) as [h2|] eqn:E2; [|done]. cbn [mbind option_bind] in E.
  apply apply_inner_inv in E2; [|apply (ensure_inner_inv _ F1)]. subst h2. by eapply IH.
Qed.

(** the ops of the path with directions [dirs] below [p], from the root down *)
Fixpoint dops M (p dirs : list bool) : list inner_op :=
  match dirs with [] => [] | d :: ds => inner_for d (ms (p ++ [negb d]) M) :: dops M (p ++ [d]) ds end.

Lemma leaf_sep_len : length LEAF_DOMAIN_SEPARATOR = 13. Proof. reflexivity. Qed.
Lemma leaf_data_internal lf k v a b r : lo_prefix lf = LEAF_DOMAIN_SEPARATOR ++ r -> leaf_data H lf k v <> internal_input a b.
Proof.
  intros E. unfold leaf_data, internal_input. rewrite E. intros Z. apply (f_equal (fun l => nth 5 l x00)) in Z. cbn in Z. discriminate.
Qed.
Lemma leaf_data_leaf lf k v k' h r : lo_prefix lf = LEAF_DOMAIN_SEPARATOR ++ r -> leaf_data H lf k v = leaf_input k' h ->
  lo_prefix lf = LEAF_DOMAIN_SEPARATOR /\ k' = H k /\ h = H v.
Proof.
  intros E Z. unfold leaf_data, leaf_input in Z. pose proof (f_equal length Z) as L. rewrite E in L. rewrite !app_length, !bs_length in L.
  destruct r; [|cbn in L; lia]. rewrite app_nil_r in E. split; [done|]. rewrite E in Z. apply app_inv_head in Z.
  apply app_split_len in Z as [Z1 Z2]; [|by rewrite !bs_length]. split; by apply b32_inj.
Qed.
Lemma inner_data_leaf op h k v : ensure_inner ics23_spec op = true -> io_prefix op ++ h ++ io_suffix op <> leaf_input k v.
Proof.
  intros (_ & E & L & _)%ensure_inner_inv Z. unfold leaf_input in Z. symmetry in Z. apply has_prefix_app in Z; [congruence|]. rewrite leaf_sep_len. lia.
Qed.
Lemma inner_data_internal op (h : bytes32) a b : ensure_inner ics23_spec op = true -> io_prefix op ++ b32 h ++ io_suffix op = internal_input a b ->
  exists d, op = inner_for d (if d then a else b) /\ h = if d then b else a.
Proof.
  intros (E & _ & L & D)%ensure_inner_inv Z. unfold internal_input in Z. pose proof (f_equal length Z) as Q. rewrite !app_length, !bs_length in Q.
  rewrite ids_len in Q. destruct op as [oh pre suf]; cbn [io_hash io_prefix io_suffix] in *. subst oh.
  assert (C : length suf = 0 \/ length suf = 32).
  { apply Nat.mod_divides in D as [c D]; [|lia]. assert (c = 0 \/ c = 1) as [->| ->] by lia; lia. }
  destruct C as [C|C].
  - exists true. destruct suf; [|done]. rewrite app_nil_r, app_assoc in Z. cbn [length] in Q. apply app_split_len in Z as [-> Z].
    + apply b32_inj in Z as ->. done.
    + rewrite app_length, ids_len, bs_length. lia.
  - exists false. apply app_split_len in Z as [-> Z]; [|rewrite ids_len; lia]. apply app_split_len in Z as [Z ->]; [|by rewrite !bs_length].
    apply b32_inj in Z as ->. done.
Qed.

Lemma descend qs M lf k v : ensure_leaf lf (ps_leaf ics23_spec) = true -> forall ops p,
  forallb (ensure_inner ics23_spec) (rev ops) = true ->
  (forall x, x ∈ ms_in H p M -> x ∈ qs) ->
  leaf_data H lf k v ∈ qs -> (forall x, x ∈ path_inputs H (rev ops) (b32 (H (leaf_data H lf k v))) -> x ∈ qs) ->
  apply_path H (rev ops) (b32 (H (leaf_data H lf k v))) = Some (b32 (ms p M)) ->
  hash_broken H qs \/ exists dirs, length dirs = length ops /\ ops = dops M p dirs /\ under (p ++ dirs) M = {[ H k := H v ]} /\
    (forall i, i < length dirs -> 2 <= size (under (p ++ take i dirs) M)) /\ lo_prefix lf = LEAF_DOMAIN_SEPARATOR.
Proof.
  intros F. destruct (ensure_leaf_inv _ F) as (_ & _ & _ & _ & r & Er).
  induction ops as [|op ops IH]; intros p Fi Qm Ql Qp E; cbn [rev] in *.
  - cbn [apply_path] in E. injection E as E. apply b32_inj in E.
    destruct (size_cases (under p M)) as [E0|[(k' & h & E0)|Hm]].
    + rewrite ms_empty in E by done. left. eapply hash_ph_or; [exact Ql|done].
    + rewrite (ms_single _ _ _ k' h) in E by done.
      assert (Q : leaf_input k' h ∈ qs) by (apply Qm; rewrite (ms_in_single _ _ _ k' h) by done; apply elem_of_list_here).
      destruct (hash_inj_or H qs _ _ Ql Q E) as [Z|]; [|by left]. destruct (leaf_data_leaf _ _ _ _ _ _ Er Z) as (Z1 & -> & ->).
      right. exists []. rewrite app_nil_r. repeat (split; [done|]). split; [|done]. intros i Hi. cbn in Hi. lia.
    + rewrite ms_many in E by done. pose proof (Qm _ (ms_in_internal _ _ _ Hm)) as Q.
      destruct (hash_inj_or H qs _ _ Ql Q E) as [Z|]; [|by left]. by apply (leaf_data_internal _ _ _ _ _ _ Er) in Z.
  - rewrite forallb_app in Fi. apply andb_true_iff in Fi as [Fi Fo]. cbn [forallb] in Fo. rewrite andb_true_r in Fo.
    rewrite apply_path_app in E. destruct (apply_path H (rev ops) _) as [h'|] eqn:E1; [|done]. cbn [mbind option_bind apply_path] in E.
    destruct (apply_path_b32 _ _ _ Fi E1) as [hh ->]. destruct (apply_inner H op (b32 hh)) as [r2|] eqn:E2; [|done]. cbn [mbind option_bind] in E. injection E as ->.
    apply apply_inner_inv in E2; [|apply (ensure_inner_inv _ Fo)]. apply b32_inj in E2. rewrite (path_inputs_app _ _ _ _ Fi E1) in Qp.
    assert (Qi : io_prefix op ++ b32 hh ++ io_suffix op ∈ qs) by (apply Qp, elem_of_app; right; apply elem_of_list_here).
    assert (Qp' : forall x, x ∈ path_inputs H (rev ops) (b32 (H (leaf_data H lf k v))) -> x ∈ qs) by (intros x Hx; apply Qp, elem_of_app; by left). clear Qp.
    destruct (size_cases (under p M)) as [E0|[(k' & h & E0)|Hm]].
    + rewrite ms_empty in E2 by done. left. by eapply hash_ph_or.
    + rewrite (ms_single _ _ _ k' h) in E2 by done.
      assert (Q : leaf_input k' h ∈ qs) by (apply Qm; rewrite (ms_in_single _ _ _ k' h) by done; apply elem_of_list_here).
      symmetry in E2. destruct (hash_inj_or H qs _ _ Qi Q E2) as [Z|]; [|by left]. by apply inner_data_leaf in Z.
    + rewrite ms_many in E2 by done. pose proof (Qm _ (ms_in_internal _ _ _ Hm)) as Q.
      symmetry in E2. destruct (hash_inj_or H qs _ _ Qi Q E2) as [Z|]; [|by left]. apply inner_data_internal in Z as (d & Eop & Eh); [|done].
      assert (Eh2 : hh = ms (p ++ [d]) M) by (by destruct d). subst hh.
      destruct (IH (p ++ [d])) as [B|(dirs & D1 & D2 & D3 & D4 & D5)]; [exact Fi| |exact Ql|exact Qp'|by rewrite Eh2|by left|].
      { intros x Hx. apply Qm. by eapply ms_in_half. }
      right. exists (d :: dirs). cbn [length dops]. split; [by rewrite D1|]. split.
      { rewrite Eop, D2. f_equal. f_equal. by destruct d. }
      split. { by rewrite <- D3, <- app_assoc. }
      split; [|done]. intros [|i] Hi; cbn [take]; [by rewrite app_nil_r|]. specialize (D4 i). rewrite <- app_assoc in D4. apply D4. lia.
Qed.
Lemma dops_cops M k : forall n a, a + n <= 256 -> dops M (kpre a k) (take n (drop a (key_bits k))) = map (cop H M k) (seq a n).
Proof.
  induction n as [|n IH]; intros a L; [done|]. rewrite (drop_S _ (bit_at k a)) by (apply bit_at_lookup; lia). cbn [take dops seq map].
  f_equal. rewrite <- kpre_S by lia. rewrite IH by lia. done.
Qed.

Lemma leaf_is_jmt lf : ensure_leaf lf (ps_leaf ics23_spec) = true -> lo_prefix lf = LEAF_DOMAIN_SEPARATOR -> lf = jmt_leaf_op.
Proof.
  intros (L1 & L2 & L3 & L4 & _)%ensure_leaf_inv L5. destruct lf as [l1 l2 l3 l4 l5]; cbn [lo_hash lo_prehash_key lo_prehash_value lo_length lo_prefix] in *. by subst.
Qed.
(** An accepted existence proof is the honest proof of an entry of the map. *)
Lemma exist_sound qs (m : gmap key value) k v e : (forall x, x ∈ root_inputs H m -> x ∈ qs) -> (forall x, x ∈ exist_inputs H e -> x ∈ qs) ->
  ics_verify_existence H ics23_spec (b32 (smt_root H m)) k v e = true ->
  hash_broken H qs \/ exists n, term (H <$> m) (H k) n /\ e = hexist H m k v n /\ m !! H k = Some v /\ k <> [] /\ v <> [].
Proof.
  intros Qm Qe. unfold ics_verify_existence, check_spec. rewrite !andb_true_iff, !bool_decide_eq_true. intros ((((Fl & Fi) & Ek) & Ev) & E).
  destruct e as [k' v' lf path]; cbn [ep_key ep_value ep_leaf ep_path] in *. subst k' v'. destruct lf as [lf|]; [|done].
  unfold calculate_root in E. cbn [ep_key ep_value ep_leaf ep_path mbind option_bind] in E.
  destruct (apply_leaf H lf k v) as [h|] eqn:El; [|done]. cbn [mbind option_bind] in E. destruct (apply_leaf_inv _ _ _ _ Fl El) as (Nk & Nv & ->).
  unfold exist_inputs in Qe. cbn [ep_key ep_value ep_leaf ep_path] in Qe. rewrite <- (ms_nil H) in E.
  assert (Qv : v ∈ qs) by (apply Qe, elem_of_list_further, elem_of_list_here).
  assert (Qd : leaf_data H lf k v ∈ qs) by (apply Qe; do 2 apply elem_of_list_further; apply elem_of_list_here).
  assert (Qp : forall x, x ∈ path_inputs H path (b32 (H (leaf_data H lf k v))) -> x ∈ qs) by (intros x Hx; apply Qe; by do 3 apply elem_of_list_further).
  rewrite <- (rev_involutive path) in *.
  destruct (descend qs (H <$> m) lf k v Fl (rev path) []) as [B|(dirs & D1 & D2 & D3 & D4 & D5)]; [done| |done|done|done|by left|].
  { intros x Hx. by apply Qm, ms_in_root. }
  cbn [app] in *. assert (EM : under dirs (H <$> m) !! H k = Some (H v)) by (rewrite D3; apply lookup_singleton).
  apply under_lookup in EM as [EM EP]. pose proof (haspre_len _ _ EP) as Ln. pose proof (haspre_iff_kpre _ _ Ln EP) as Ed. set (n := length dirs) in *.
  rewrite lookup_fmap in EM. destruct (m !! H k) as [x|] eqn:Ex; [|done]. cbn in EM. injection EM as EM.
  destruct (hash_inj_or H qs x v) as [->|]; [by eapply Qm, value_in_root|done|done| |by left]. right. exists n.
  assert (T : term (H <$> m) (H k) n).
  { split; [done|]. split. { rewrite <- Ed, D3, map_size_singleton. done. }
    intros i Hi. specialize (D4 i Hi). rewrite Ed in D4. unfold kpre in *. rewrite take_take in D4. by rewrite Nat.min_l in D4 by lia. }
  split; [done|]. split; [|done]. unfold hexist. rewrite (leaf_is_jmt lf Fl D5).
  f_equal. rewrite D2, Ed. unfold cops. rewrite <- (dops_cops (H <$> m) (H k) n 0) by lia. rewrite drop_0.
  reflexivity.
Qed.

Lemma ph_empty qs M p : (forall x, x ∈ ms_in H p M -> x ∈ qs) -> ms p M = SPARSE_MERKLE_PLACEHOLDER_HASH -> under p M = ∅ \/ hash_broken H qs.
Proof.
  intros Q E. destruct (size_cases (under p M)) as [E0|[(k' & h & E0)|Hm]]; [by left| |]; right.
  - rewrite (ms_single _ _ _ k' h) in E by done. eapply hash_ph_or; [|exact E]. apply Q. rewrite (ms_in_single _ _ _ k' h) by done. apply elem_of_list_here.
  - rewrite ms_many in E by done. eapply hash_ph_or; [|exact E]. apply Q. by apply ms_in_internal.
Qed.
Lemma ms_in_path M k i b : i < 256 -> (forall j, j <= i -> 2 <= size (under (kpre j k) M)) -> forall x, x ∈ ms_in H (kpre i k ++ [b]) M -> x ∈ ms_in H [] M.
Proof.
  intros Li G x Hx. apply ms_in_half in Hx; [|by apply G]. clear b. revert Hx. induction i as [|i IH]; intros Hx; [exact Hx|].
  apply IH; [lia|intros; apply G; lia|]. rewrite kpre_S in Hx by lia. eapply ms_in_half; [|exact Hx]. apply G. lia.
Qed.
Lemma all_or (P : nat -> Prop) (B : Prop) : forall n, (forall i, i < n -> P i \/ B) -> (forall i, i < n -> P i) \/ B.
Proof.
  induction n as [|n IH]; intros G; [left; intros; lia|]. destruct IH as [IH|]; [intros; apply G; lia| |by right]. destruct (G n) as [Gn|]; [lia| |by right].
  left. intros i Hi. destruct (decide (i = n)) as [->|]; [done|]. apply IH. lia.
Qed.
Lemma right_most_free qs M k a n : (forall x, x ∈ ms_in H [] M -> x ∈ qs) -> term M k n -> right_most_from H M k a n -> right_free M k a n \/ hash_broken H qs.
Proof.
  intros Q (Ln & _ & Mn) R. destruct (all_or (fun i => a <= i -> bit_at k i = false -> under (kpre i k ++ [true]) M = ∅) (hash_broken H qs) n) as [G|]; [| |by right].
  - intros i Hi. destruct (decide (a <= i)); [|left; lia]. destruct (bit_at k i) eqn:Bi; [by left|].
    destruct (ph_empty qs M (kpre i k ++ [true])) as [E|]; [|by apply R| |by right].
    + intros x Hx. eapply Q, ms_in_path; [| |exact Hx]; [lia|]. intros j Hj. apply Mn. lia.
    + by left.
  - left. intros i Hi. apply G; lia.
Qed.
Lemma left_most_free qs M k a n : (forall x, x ∈ ms_in H [] M -> x ∈ qs) -> term M k n -> left_most_from H M k a n -> left_free M k a n \/ hash_broken H qs.
Proof.
  intros Q (Ln & _ & Mn) R. destruct (all_or (fun i => a <= i -> bit_at k i = true -> under (kpre i k ++ [false]) M = ∅) (hash_broken H qs) n) as [G|]; [| |by right].
  - intros i Hi. destruct (decide (a <= i)); [|left; lia]. destruct (bit_at k i) eqn:Bi; [|by left].
    destruct (ph_empty qs M (kpre i k ++ [false])) as [E|]; [|by apply R| |by right].
    + intros x Hx. eapply Q, ms_in_path; [| |exact Hx]; [lia|]. intros j Hj. apply Mn. lia.
    + by left.
  - left. intros i Hi. apply G; lia.
Qed.
Lemma term_here M k n h : term M k n -> M !! k = Some h -> under (kpre n k) M = {[ k := h ]}.
Proof.
  intros T E. destruct (term_cases _ _ _ T) as [(_ & _ & C)|(k' & h' & Eu & _ & C1 & _ & C2)]; [congruence|].
  destruct (decide (k' = k)) as [->|Ne]; [congruence|]. apply C2 in Ne. congruence.
Qed.
Lemma cmp_lt x y : lex_ltb (cmp_key H ics23_spec x) (cmp_key H ics23_spec y) = true <-> key_lt (H x) (H y).
Proof. unfold lex_ltb, cmp_key, key_lt, key_compare. change (ps_prehash_key ics23_spec) with true. cbn iota. destruct (bytes_compare _ _); done. Qed.
(** An accepted non-existence proof is about an absent key. *)
Lemma nonexist_sound qs (m : gmap key value) k e : (forall x, x ∈ root_inputs H m -> x ∈ qs) -> (forall x, x ∈ nonexist_inputs H e -> x ∈ qs) ->
  ics_verify_nonexistence H ics23_spec (b32 (smt_root H m)) k e = true -> hash_broken H qs \/ m !! H k = None.
Proof.
  intros Qm Qe. destruct e as [ek el er]. unfold ics_verify_nonexistence, nonexist_inputs in *. cbn [ne_left ne_right] in *.
  rewrite !andb_true_iff, bool_decide_eq_true. intros ((Gl & Gr) & G).
  assert (Qn : forall x, x ∈ ms_in H [] (H <$> m) -> x ∈ qs) by (intros x Hx; by apply Qm, ms_in_root).
  destruct (m !! H k) as [z|] eqn:Ez; [|by right]. left. assert (Iz : is_Some ((H <$> m) !! H k)) by (rewrite lookup_fmap, Ez; by eexists).
  assert (Xl : match el with Some l => hash_broken H qs \/ exists n, term (H <$> m) (H (ep_key l)) n /\ l = hexist H m (ep_key l) (ep_value l) n /\ m !! H (ep_key l) = Some (ep_value l) /\ key_lt (H (ep_key l)) (H k) | None => True end).
  { destruct el as [l|]; [|done]. apply andb_true_iff in Gl as [V L]. apply cmp_lt in L.
    destruct (exist_sound qs m _ _ _ Qm ltac:(intros x Hx; apply Qe, elem_of_app; by left) V) as [B|(n & T & E1 & E2 & _)]; [by left|]. right. by exists n. }
  assert (Xr : match er with Some r => hash_broken H qs \/ exists n, term (H <$> m) (H (ep_key r)) n /\ r = hexist H m (ep_key r) (ep_value r) n /\ m !! H (ep_key r) = Some (ep_value r) /\ key_lt (H k) (H (ep_key r)) | None => True end).
  { destruct er as [r|]; [|done]. apply andb_true_iff in Gr as [V L]. apply cmp_lt in L.
    destruct (exist_sound qs m _ _ _ Qm ltac:(intros x Hx; apply Qe, elem_of_app; by right) V) as [B|(n & T & E1 & E2 & _)]; [by left|]. right. by exists n. }
  clear Gl Gr Qe.
  destruct el as [l|].
  - destruct Xl as [|(nl & Tl & El & Ml & Ll)]; [done|]. assert (Ul : under (kpre nl (H (ep_key l))) (H <$> m) = {[ H (ep_key l) := H (ep_value l) ]}).
    { apply term_here; [done|]. by rewrite lookup_fmap, Ml. }
    destruct er as [r|].
    + destruct Xr as [|(nr & Tr & Er & Mr & Lr)]; [done|]. assert (Ur : under (kpre nr (H (ep_key r))) (H <$> m) = {[ H (ep_key r) := H (ep_value r) ]}).
      { apply term_here; [done|]. by rewrite lookup_fmap, Mr. }
      rewrite El, Er in G. unfold hexist in G. cbn [ep_path] in G. symmetry in G.
      apply neighbor_rev in G as (c & C1 & C2 & C3 & C4 & C5 & C6 & C7); [|apply Tl|apply Tr].
      destruct (right_most_free qs _ _ _ _ Qn Tl C6) as [F6|]; [|done]. destruct (left_most_free qs _ _ _ _ Qn Tr C7) as [F7|]; [|done]. exfalso.
      pose proof Tl as (Bl & _). pose proof Tr as (Br & _).
      assert (Pc : kpre c (H k) = kpre c (H (ep_key l))).
      { apply key_lt_iff in Ll as (i & Li & Ei & Bi1 & Bi2). apply key_lt_iff in Lr as (j & Lj & Ej & Bj1 & Bj2).
        destruct (decide (c <= i)); [symmetry; apply (kpre_le c i); [lia|done]|]. exfalso.
        destruct (decide (c <= j)).
        - assert (Z : kpre c (H k) = kpre c (H (ep_key r))) by (apply (kpre_le c j); [lia|done]). rewrite <- C3 in Z.
          pose proof (kpre_bit i c _ _ ltac:(lia) ltac:(lia) Z). congruence.
        - pose proof (kpre_bit i c _ _ ltac:(lia) ltac:(lia) C3) as Z1. pose proof (kpre_bit j c _ _ ltac:(lia) ltac:(lia) C3) as Z2.
          destruct (decide (i < j)) as [Q|Q]. { pose proof (kpre_bit i j _ _ Q ltac:(lia) Ej). congruence. }
          destruct (decide (j < i)) as [Q2|Q2]. { pose proof (kpre_bit j i _ _ Q2 ltac:(lia) Ei). congruence. }
          assert (i = j) as -> by lia. congruence. }
      destruct (bit_at (H k) c) eqn:Bk.
      * eapply (left_free_elim (H <$> m) (H (ep_key r)) (H (ep_value r)) (Datatypes.S c) nr (H k)); [lia|done|done|done|done| |done].
        apply kpre_S_eq; [lia|]. split; congruence.
      * eapply (right_free_elim (H <$> m) (H (ep_key l)) (H (ep_value l)) (Datatypes.S c) nl (H k)); [lia|done|done|done|done| |done].
        apply kpre_S_eq; [lia|]. split; congruence.
    + rewrite El in G. unfold hexist in G. cbn [ep_path] in G. symmetry in G. unfold cops in G. apply right_most_seq in G. cbn [Nat.add] in G.
      destruct (right_most_free qs _ _ _ _ Qn Tl G) as [F6|]; [|done]. exfalso.
      eapply (right_free_elim (H <$> m) (H (ep_key l)) (H (ep_value l)) 0 nl (H k)); [lia|apply Tl|done|done|done|done|done].
  - destruct er as [r|]; [|done].
    destruct Xr as [|(nr & Tr & Er & Mr & Lr)]; [done|]. assert (Ur : under (kpre nr (H (ep_key r))) (H <$> m) = {[ H (ep_key r) := H (ep_value r) ]}).
    { apply term_here; [done|]. by rewrite lookup_fmap, Mr. }
    rewrite Er in G. unfold hexist in G. cbn [ep_path] in G. symmetry in G. unfold cops in G. apply left_most_seq in G. cbn [Nat.add] in G.
    destruct (left_most_free qs _ _ _ _ Qn Tr G) as [F6|]; [|done]. exfalso.
    eapply (left_free_elim (H <$> m) (H (ep_key r)) (H (ep_value r)) 0 nr (H k)); [lia|apply Tr|done|done|done|done|done].
Qed.
End sound.
