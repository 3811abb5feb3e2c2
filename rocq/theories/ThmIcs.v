(** C42, C43, C44, C57, C58: the ICS23 proofs.  The tree's hash function [H] plays SHA-256, the hash the ICS23 ops name. *)
From Verif Require Import Base Spec SpecOrder NodeType ProofDef TreeCache Tree Mock Driver Exclusion KeyFacts SmtFacts ProofFacts KeyOrder OrderFacts ExclFacts DriverFacts
  Ics23 Ics23Verify IcsFacts IcsSound ThmProof ThmStore ThmExcl ReadFacts Demo Toy.
From Coq Require Import Lia.
Local Opaque Spec.smt.

Section thm.
Context (H : list byte -> bytes32).

(** *** C42: the conversion computes the same root.  The proof [p] is any proof (not only one made by a tree). *)
Theorem C42_conversion_faithful ovf (k : list byte) (v : value) (p : sm_proof) :
  k <> [] -> v <> [] -> p_leaf p = Some (LeafNode (H k) (H v)) -> length (p_siblings p) <= 256 ->
  exists e, to_ics23 H ovf k v p = Ok e /\ ep_key e = k /\ ep_value e = v /\ length (ep_path e) = length (p_siblings p) /\
    check_spec ics23_spec e = true /\
    forall root : bytes32, verify_existence H p root (H k) v = Ok tt <-> calculate_root H e = Some (b32 root).
Proof.
  intros Nk Nv El L. eexists. split; [by apply to_ics23_ok|]. cbn [ep_key ep_value ep_path]. split; [done|]. split; [done|]. split.
  { unfold conv_path. rewrite zip_with_length_r_eq; [done|]. rewrite rev_length, kpre_length; lia. }
  split; [apply check_conv|]. intros root. rewrite calculate_conv by done. unfold verify_existence, verify. rewrite El. cbn [ln_key ln_vh].
  rewrite (proj2 (Nat.leb_le _ _) L). cbn [ensure_ mbind outcome_bind]. rewrite !bool_decide_true by done. cbn [ensure_ mbind outcome_bind].
  rewrite usub_ok by lia. cbn [mbind outcome_bind]. rewrite ensure_ok, bool_decide_eq_true. cbn [opt_leaf_hash]. unfold leaf_hash. cbn [ln_key ln_vh]. split.
  - intros <-. done.
  - intros Z. injection Z as Z. by apply b32_inj in Z.
Qed.
(** A proof with more than 256 siblings makes the conversion panic in a build with overflow checks. *)
Theorem C42_too_many_siblings k v (p : sm_proof) : 256 < length (p_siblings p) -> to_ics23 H true k v p = Panic.
Proof. apply to_ics23_panic. Qed.

(** *** C43: completeness *)
Context (pre : key -> option (list byte)).
(** The raw keys of the entries of [m] are known, and neither they nor the values are empty. *)
Definition preimages_known (m : gmap key value) : Prop :=
  forall j x, m !! j = Some x -> x <> [] /\ exists raw, pre j = Some raw /\ H raw = j /\ raw <> [].
(** ... of the neighbours of [k] only. *)
Definition neighbours_known (m : gmap key value) (k : key) : Prop :=
  forall j x, m !! j = Some x -> pred_key m k j \/ succ_key m k j -> x <> [] /\ exists raw, pre j = Some raw /\ H raw = j /\ raw <> [].
(** [n] names the true neighbours of [k] in [m], with existence proofs that compute the root of [m]. *)
Definition ics_names (m : gmap key value) (k : list byte) (n : nonexist_proof) : Prop :=
  ne_key n = k /\
  match ne_left n with
  | Some l => pred_key m (H k) (H (ep_key l)) /\ m !! H (ep_key l) = Some (ep_value l) /\ calculate_root H l = Some (b32 (smt_root H m))
  | None => forall j, is_Some (m !! j) -> ~ key_lt j (H k)
  end /\
  match ne_right n with
  | Some r => succ_key m (H k) (H (ep_key r)) /\ m !! H (ep_key r) = Some (ep_value r) /\ calculate_root H r = Some (b32 (smt_root H m))
  | None => forall j, is_Some (m !! j) -> ~ key_lt (H k) j
  end.
Lemma exist_self m l raw x n : l = hexist H m raw x n -> term (H <$> m) (H raw) n -> m !! H raw = Some x -> raw <> [] -> x <> [] ->
  ics_verify_existence H ics23_spec (b32 (smt_root H m)) (ep_key l) (ep_value l) l = true.
Proof. intros -> T E N1 N2. by apply hexist_verifies. Qed.
Section view.
(** what is needed of a reader (of any store) for version [v] with the contents [m] *)
Context (rd : reader) (v : version) (m : gmap key value) (ver : list nibble -> version) (St : stored H rd (H <$> m) ver v) (Hk : forall k, rd_value rd v k = m !! k).
Lemma view_proof k : exists n, term (H <$> m) k n /\ get_with_proof H rd k v = Ok (m !! k, hproof H (H <$> m) k n).
Proof using St Hk. by apply (get_with_proof_canon H rd m ver). Qed.
Lemma view_bounds k : m !! k = None -> m <> ∅ -> exists l r, get_bounding_path rd k v = Ok (l, r) /\ nearest (H <$> m) ELeft k l /\ nearest (H <$> m) ERight k r.
Proof using St. intros Ek Ne. eapply (ExclFacts.bounding_ok H); [exact St|by rewrite lookup_fmap, Ek|]. intros Z. by apply fmap_empty_inv in Z. Qed.
Lemma view_present ovf (k : list byte) x : m !! H k = Some x -> exists n, term (H <$> m) (H k) n /\ get_with_ics23_proof H rd pre ovf k v = Ok (Some x, CPExist (hexist H m k x n)).
Proof using St Hk.
  intros Ek. destruct (view_proof (H k)) as (n & T & E). rewrite Ek in E. exists n. split; [done|].
  unfold get_with_ics23_proof, get_with_exclusion_proof. rewrite E, bind_Ok. cbn beta iota. rewrite bind_Ok. cbn beta iota.
  rewrite hexist_conv, bind_Ok; [done|]. apply T.
Qed.
Lemma view_existence ovf (k : list byte) x : m !! H k = Some x -> k <> [] -> x <> [] ->
  exists e, get_with_ics23_proof H rd pre ovf k v = Ok (Some x, e) /\ verify_membership H ics23_spec (b32 (smt_root H m)) k x e = true.
Proof using St Hk.
  intros Ek Nk Nx. destruct (view_present ovf k x Ek) as (n & T & E). exists (CPExist (hexist H m k x n)). split; [done|]. by apply hexist_verifies.
Qed.
Lemma view_leaf j x : m !! j = Some x -> exists n, term (H <$> m) j n /\ get_with_proof H rd j v = Ok (Some x, hproof H (H <$> m) j n) /\ p_leaf (hproof H (H <$> m) j n) = Some (LeafNode j (H x)).
Proof using St Hk.
  intros Ex. destruct (view_proof j) as (n & T & E). rewrite Ex in E. exists n. split; [done|]. split; [done|]. rewrite hproof_leaf. apply hleaf_single. apply term_here; [done|]. by rewrite lookup_fmap, Ex.
Qed.
Lemma neighbour_conv ovf pf (j : key) raw x : m !! j = Some x -> pre j = Some raw -> H raw = j ->
  exists p n, get_with_proof H rd j v = Ok (Some x, p) /\ neighbour H rd pre ovf pf v p = Ok (hexist H m raw x n) /\ term (H <$> m) j n.
Proof using St Hk.
  intros Ex Er Hr. destruct (view_leaf j x Ex) as (n & T & E & El). exists (hproof H (H <$> m) j n), n. split; [done|]. split; [|done].
  unfold neighbour. rewrite El. cbn [unwrap]. rewrite bind_Ok. cbn [ln_key]. rewrite Er. unfold get. rewrite Hk, Ex. destruct pf; cbn [ok_or]; rewrite !bind_Ok; subst j; apply hexist_conv; apply T.
Qed.
Lemma neighbour_ok ovf pf (i j : key) : neighbours_known m i -> pred_key m i j \/ succ_key m i j ->
  exists raw x p n, get_with_proof H rd j v = Ok (Some x, p) /\ neighbour H rd pre ovf pf v p = Ok (hexist H m raw x n) /\
    H raw = j /\ m !! j = Some x /\ term (H <$> m) j n /\ raw <> [] /\ x <> [].
Proof using St Hk.
  intros K Nb. assert (Ix : is_Some (m !! j)) by (destruct Nb as [Nb|Nb]; apply Nb). destruct Ix as [x Ex]. destruct (K j x Ex Nb) as (Nx & raw & Er & Hr & Nr).
  destruct (neighbour_conv ovf pf j raw x Ex Er Hr) as (p & n & E & En & T). by exists raw, x, p, n.
Qed.
Lemma view_nonexistence ovf (k : list byte) : neighbours_known m (H k) -> m !! H k = None -> m <> ∅ ->
  exists n, get_with_ics23_proof H rd pre ovf k v = Ok (None, CPNonexist n) /\ ics_names m k n /\
    verify_non_membership H ics23_spec (b32 (smt_root H m)) k (CPNonexist n) = true.
Proof using St Hk.
  intros K Ek Ne. unfold get_with_ics23_proof, get_with_exclusion_proof.
  destruct (view_proof (H k)) as (n0 & _ & ->). rewrite Ek, bind_Ok. cbn beta iota.
  destruct (view_bounds (H k) Ek Ne) as (l & r & -> & Nl & Nr). rewrite bind_Ok. cbn beta iota.
  assert (E : forall j, is_Some ((H <$> m) !! j) <-> is_Some (m !! j)) by (intros; rewrite lookup_fmap; apply fmap_is_Some).
  destruct l as [kl|], r as [kr|].
  - apply nearest_pred in Nl. apply nearest_succ in Nr.
    destruct (neighbour_ok ovf false (H k) kl K (or_introl Nl)) as (rl & xl & pl & nl & -> & El & Hl & Ml & Tl & Zl & Yl). rewrite bind_Ok. cbn beta iota.
    destruct (neighbour_ok ovf false (H k) kr K (or_intror Nr)) as (rr & xr & pr & nr & -> & Er & Hr & Mr & Tr & Zr & Yr). rewrite bind_Ok. cbn beta iota.
    rewrite bind_Ok. cbn beta iota. cbn [exclusion_to_ics23]. rewrite Er, bind_Ok, El, bind_Ok, bind_Ok. eexists. split; [done|]. subst kl kr.
    split.
    { split; [done|]. cbn [ne_left ne_right hexist ep_key ep_value]. split; (split; [done|]; split; [done|]); by apply hexist_root. }
    unfold verify_non_membership, ics_verify_nonexistence. cbn [ne_left ne_right].
    rewrite (exist_self m _ rl xl nl), (exist_self m _ rr xr nr) by done. cbn [andb hexist ep_key ep_path].
    rewrite (proj2 (cmp_lt H rl k)), (proj2 (cmp_lt H k rr)) by (apply Nl || apply Nr). cbn [andb]. apply bool_decide_eq_true. symmetry.
    destruct Nl as (Il & Ll & Gl), Nr as (Ir & Lr & Gr).
    apply adjacent_paths; [done|done|by apply E|by apply E|by eapply key_lt_trans|]. intros j Ij Lj1 Lj2. apply E in Ij.
    destruct (key_lt_total j (H k)) as [T|[Ej|T]].
    + destruct (Gl j Ij T) as [->|Z]; [by apply key_lt_irrefl in Lj1|]. by apply (key_lt_irrefl j), (key_lt_trans _ _ _ Z).
    + rewrite Ej, Ek in Ij. by destruct Ij.
    + destruct (Gr j Ij T) as [<-|Z]; [by apply key_lt_irrefl in Lj2|]. by apply (key_lt_irrefl j), (key_lt_trans _ _ _ Lj2).
  - apply nearest_pred in Nl.
    destruct (neighbour_ok ovf false (H k) kl K (or_introl Nl)) as (rl & xl & pl & nl & -> & El & Hl & Ml & Tl & Zl & Yl). rewrite bind_Ok. cbn beta iota.
    rewrite bind_Ok. cbn beta iota. cbn [exclusion_to_ics23]. rewrite El, bind_Ok, bind_Ok. eexists. split; [done|]. subst kl.
    assert (Nr' : forall j, is_Some (m !! j) -> ~ key_lt (H k) j) by (intros j Ij; apply Nr; by apply E).
    split.
    { split; [done|]. cbn [ne_left ne_right hexist ep_key ep_value]. split; [|done]. split; [done|]. split; [done|]. by apply hexist_root. }
    unfold verify_non_membership, ics_verify_nonexistence. cbn [ne_left ne_right].
    rewrite (exist_self m _ rl xl nl) by done. cbn [andb hexist ep_key ep_path].
    rewrite (proj2 (cmp_lt H rl k)) by apply Nl. cbn [andb]. apply bool_decide_eq_true. symmetry. unfold cops.
    apply right_most_seq, right_free_most, right_free_intro; [apply Tl|]. intros j Ij _ Lj. apply E in Ij.
    destruct Nl as (Il & Ll & Gl). destruct (key_lt_total j (H k)) as [T|[Ej|T]].
    + exfalso. destruct (Gl j Ij T) as [->|Z]; [by apply key_lt_irrefl in Lj|]. by apply (key_lt_irrefl j), (key_lt_trans _ _ _ Z).
    + exfalso. rewrite Ej, Ek in Ij. by destruct Ij.
    + by apply (Nr' j).
  - apply nearest_succ in Nr.
    destruct (neighbour_ok ovf true (H k) kr K (or_intror Nr)) as (rr & xr & pr & nr & -> & Er & Hr & Mr & Tr & Zr & Yr). rewrite bind_Ok. cbn beta iota.
    rewrite bind_Ok. cbn beta iota. cbn [exclusion_to_ics23]. rewrite Er, bind_Ok, bind_Ok. eexists. split; [done|]. subst kr.
    assert (Nl' : forall j, is_Some (m !! j) -> ~ key_lt j (H k)) by (intros j Ij; apply Nl; by apply E).
    split.
    { split; [done|]. cbn [ne_left ne_right hexist ep_key ep_value]. split; [done|]. split; [done|]. split; [done|]. by apply hexist_root. }
    unfold verify_non_membership, ics_verify_nonexistence. cbn [ne_left ne_right].
    rewrite (exist_self m _ rr xr nr) by done. cbn [andb hexist ep_key ep_path].
    rewrite (proj2 (cmp_lt H k rr)) by apply Nr. cbn [andb]. apply bool_decide_eq_true. symmetry. unfold cops.
    apply left_most_seq, left_free_most, left_free_intro; [apply Tr|]. intros j Ij _ Lj. apply E in Ij.
    destruct Nr as (Ir & Lr & Gr). destruct (key_lt_total j (H k)) as [T|[Ej|T]].
    + by apply (Nl' j).
    + exfalso. rewrite Ej, Ek in Ij. by destruct Ij.
    + exfalso. destruct (Gr j Ij T) as [<-|Z]; [by apply key_lt_irrefl in Lj|]. by apply (key_lt_irrefl j), (key_lt_trans _ _ _ Lj).
  - exfalso. apply map_choose in Ne as (j & x & Ej). assert (Ij : is_Some (m !! j)) by by eexists. apply E in Ij.
    destruct (key_lt_total j (H k)) as [T|[Ej2|T]]; [by apply (Nl j Ij)| |by apply (Nr j Ij)]. rewrite Ej2 in Ej. congruence.
Qed.
End view.
Lemma run_stored ops st xs v : run H ops = Ok (st, xs) -> readable ops v -> let m := contents_at (history ops) v in
  exists ver, stored H (store_reader st) (H <$> m) ver v /\ forall k, rd_value (store_reader st) v k = m !! k.
Proof.
  intros R [L1 L2] m. apply run_inv in R as [_ S]. destruct (read_ok H _ _ _ _ _ v S L1 L2) as (x & E & Vx & Mx & St). eexists. split; [exact St|]. intros k. by eapply value_ok.
Qed.
Theorem C43_existence_complete ovf (ops : list op) st xs (v : version) (k : list byte) x : run H ops = Ok (st, xs) -> readable ops v ->
  let m := contents_at (history ops) v in m !! H k = Some x -> k <> [] -> x <> [] ->
  exists e, get_with_ics23_proof H (store_reader st) pre ovf k v = Ok (Some x, e) /\ verify_membership H ics23_spec (b32 (smt_root H m)) k x e = true.
Proof. intros R L m. destruct (run_stored ops st xs v R L) as (ver & St & Hk). by apply (view_existence _ v m ver). Qed.
Theorem C43_nonexistence_complete ovf (ops : list op) st xs (v : version) (k : list byte) : run H ops = Ok (st, xs) -> readable ops v ->
  let m := contents_at (history ops) v in preimages_known m -> m !! H k = None -> m <> ∅ ->
  exists n, get_with_ics23_proof H (store_reader st) pre ovf k v = Ok (None, CPNonexist n) /\ ics_names m k n /\
    verify_non_membership H ics23_spec (b32 (smt_root H m)) k (CPNonexist n) = true.
Proof. intros R L m. destruct (run_stored ops st xs v R L) as (ver & St & Hk). intros K. apply (view_nonexistence _ v m ver St Hk). intros j x E _. by apply K. Qed.

(** *** C57: soundness.  A light client that accepts an ICS23 proof against the root of a map [m] learns the truth about
    [m], whoever made the proof, unless the hash function is broken on the inputs hashed. *)
Theorem C57_membership_sound (m : gmap key value) (k v : list byte) (p : commitment_proof) :
  verify_membership H ics23_spec (b32 (smt_root H m)) k v p = true ->
  exists e, p = CPExist e /\ (m !! H k = Some v \/ hash_broken H (root_inputs H m ++ exist_inputs H e)).
Proof.
  destruct p as [e|?]; [|done]. intros V. exists e. split; [done|].
  destruct (exist_sound H (root_inputs H m ++ exist_inputs H e) m k v e) as [B|(n & _ & _ & E & _)]; [| |exact V|by right|by left].
  - intros x Hx. apply elem_of_app. by left.
  - intros x Hx. apply elem_of_app. by right.
Qed.
Theorem C57_non_membership_sound (m : gmap key value) (k : list byte) (p : commitment_proof) :
  verify_non_membership H ics23_spec (b32 (smt_root H m)) k p = true ->
  exists n, p = CPNonexist n /\ (m !! H k = None \/ hash_broken H (root_inputs H m ++ nonexist_inputs H n)).
Proof.
  destruct p as [?|n]; [done|]. intros V. exists n. split; [done|].
  destruct (nonexist_sound H (root_inputs H m ++ nonexist_inputs H n) m k n) as [B|E]; [| |exact V|by right|by left].
  - intros x Hx. apply elem_of_app. by left.
  - intros x Hx. apply elem_of_app. by right.
Qed.
(** Membership and non-membership of the same key never both verify against the same root of a map. *)
Theorem C57_exclusive (m : gmap key value) (k v : list byte) (p q : commitment_proof) :
  verify_membership H ics23_spec (b32 (smt_root H m)) k v p = true ->
  verify_non_membership H ics23_spec (b32 (smt_root H m)) k q = true ->
  exists e n, p = CPExist e /\ q = CPNonexist n /\ (hash_broken H (root_inputs H m ++ exist_inputs H e) \/ hash_broken H (root_inputs H m ++ nonexist_inputs H n)).
Proof.
  intros V1 V2. destruct (C57_membership_sound m k v p V1) as (e & -> & E1). destruct (C57_non_membership_sound m k q V2) as (n & -> & E2). exists e, n. split; [done|]. split; [done|].
  destruct E1 as [E1|]; [|by left]. destruct E2 as [E2|]; [|by right]. congruence.
Qed.

(** *** C44 (refuted): the depth bound of ics23_spec().  The proof of a present key is within the bound exactly if no other
    present key hash shares its first 64 bits. *)
Theorem C44_depth_bound ovf (ops : list op) st xs (v : version) (k : list byte) x e : run H ops = Ok (st, xs) -> readable ops v ->
  get_with_ics23_proof H (store_reader st) pre ovf k v = Ok (Some x, CPExist e) ->
  depth_ok ics23_spec e = true <->
  forall j, is_Some (contents_at (history ops) v !! j) -> take 64 (key_bits j) = take 64 (key_bits (H k)) -> j = H k.
Proof.
  intros R L E. set (m := contents_at (history ops) v) in *. destruct (read_proof H ops st xs v (H k) R L) as (n & T & Er). fold m in T, Er.
  unfold get_with_ics23_proof, get_with_exclusion_proof in E. rewrite Er, bind_Ok in E. cbn beta iota in E.
  destruct (m !! H k) as [y|] eqn:Ey.
  2:{ exfalso. rewrite bind_ok in E. destruct E as ([[? ?]|ep] & E1 & E2).
      - rewrite bind_ok in E1. destruct E1 as ([[lb|] [rb|]] & _ & E1); cbn beta iota in E1; try discriminate;
          repeat (rewrite bind_ok in E1; destruct E1 as ([? ?] & _ & E1)); cbn beta iota in E1; discriminate.
      - rewrite bind_ok in E2. destruct E2 as (? & _ & E2). apply Ok_inj in E2. discriminate. }
  rewrite bind_Ok in E. cbn beta iota in E. rewrite hexist_conv, bind_Ok in E by apply T. apply Ok_inj in E.
  apply pair_equal_spec in E as [[= ->] [= <-]].
  assert (D : depth_ok ics23_spec (hexist H m k x n) = true <-> n <= 64).
  { unfold depth_ok, hexist. cbn [ep_path]. rewrite rev_length, cops_length. cbn [ps_min_depth ps_max_depth ics23_spec Nat.eqb orb andb]. apply Nat.leb_le. }
  rewrite D. change (take 64 (key_bits ?z)) with (kpre 64 z). assert (EM : (H <$> m) !! H k = Some (H x)) by by rewrite lookup_fmap, Ey.
  destruct T as (Ln & Sn & Mn). split.
  - intros Le j [hj Ej] Pj. destruct (decide (j = H k)) as [|Nj]; [done|]. exfalso. cut (2 <= size (under (kpre n (H k)) (H <$> m))); [lia|].
    apply (size_many _ (H k) (H x) j (H hj)); [| |done]; apply under_lookup.
    + split; [done|]. by apply haspre_self.
    + rewrite lookup_fmap, Ej. split; [done|]. apply haspre_kpre; [done|]. by apply (kpre_le n 64).
  - intros G. destruct (decide (n <= 64)) as [|Gt]; [done|]. exfalso. specialize (Mn 64 ltac:(lia)). apply many_elim in Mn as (a & ha & b & hb & Ea & Eb & Nab).
    assert (A : forall z hz, under (kpre 64 (H k)) (H <$> m) !! z = Some hz -> z = H k).
    { intros z hz Ez. apply under_lookup in Ez as [Ez Pz]. apply G; [|by apply haspre_kpre in Pz; [|lia]]. rewrite lookup_fmap in Ez. destruct (m !! z); [by eexists|done]. }
    rewrite (A _ _ Ea), (A _ _ Eb) in Nab. done.
Qed.
(** *** C58 (refuted): an entry with an empty value (or an empty raw key) is in the tree and its sparse Merkle proof
    verifies, but the ICS23 proof made for it verifies against no root. *)
Theorem C58_empty_rejected ovf (ops : list op) st xs (v : version) (k : list byte) x : run H ops = Ok (st, xs) -> readable ops v ->
  contents_at (history ops) v !! H k = Some x -> k = [] \/ x = [] ->
  (exists p, get_with_proof H (store_reader st) (H k) v = Ok (Some x, p) /\ verify_existence H p (smt_root H (contents_at (history ops) v)) (H k) x = Ok tt) /\
  exists e, get_with_ics23_proof H (store_reader st) pre ovf k v = Ok (Some x, e) /\ forall root, verify_membership H ics23_spec root k x e = false.
Proof.
  intros R L Ek Z. set (m := contents_at (history ops) v) in *. split.
  { destruct (read_shows H ops st xs v (H k) R L) as (x' & p & E & y & Ey & V); [by eexists|]. fold m in Ey, V. rewrite Ek in Ey. injection Ey as <-.
    exists p. destruct (C02_get_with_proof H ops st xs (H k) v R L) as (p' & E3). fold m in E3. rewrite E, Ek in E3. injection E3 as -> _. done. }
  destruct (read_proof H ops st xs v (H k) R L) as (n & T & E). fold m in T, E. rewrite Ek in E.
  exists (CPExist (hexist H m k x n)). split.
  - unfold get_with_ics23_proof, get_with_exclusion_proof. rewrite E, bind_Ok. cbn beta iota. rewrite bind_Ok. cbn beta iota.
    rewrite hexist_conv, bind_Ok; [done|]. apply T.
  - intros root. unfold verify_membership, ics_verify_existence.
    assert (C : calculate_root H (hexist H m k x n) = None).
    { unfold calculate_root, hexist. cbn [ep_leaf ep_key ep_value mbind option_bind]. by rewrite apply_leaf_empty. }
    rewrite C. rewrite (bool_decide_false (None = Some root)) by done. apply andb_false_r.
Qed.
End thm.

(** ** Concrete cases: two entries under raw keys [rawa] and [rawb], and the absent raw key [rawc]; [yot] is the toy hash
    with its bytes reversed, so that different keys differ in their first bits. *)
Definition rawa : list byte := [x61]. Definition rawb : list byte := [x62; x62]. Definition rawc : list byte := [x63].
Definition yot (l : list byte) : bytes32 := default K00 (to_bytes32 (rev (b32 (toy l)))).
Definition icsops : list op := [Commit [[(yot rawa, Some va); (yot rawb, Some vb)]]].
Definition icsm : gmap key value := {[ yot rawa := va; yot rawb := vb ]}.
Definition icspre (k : key) : option (list byte) :=
  if decide (k = yot rawa) then Some rawa else if decide (k = yot rawb) then Some rawb else None.
Definition ics_demo (k : list byte) : option (option value * commitment_proof) :=
  match run yot icsops with Ok (st, _) => match get_with_ics23_proof yot (store_reader st) icspre true k 0 with Ok r => Some r | _ => None end | _ => None end.
(** the hypotheses of C43 hold *)
Example ics_demo_contents : contents_at (history icsops) 0 = icsm /\ readable icsops 0.
Proof. split; [apply (bool_decide_unpack _); vm_compute; exact I|split; vm_compute; congruence]. Qed.
Example ics_demo_preimages : preimages_known yot icspre icsm /\ icsm !! yot rawc = None /\ icsm <> ∅.
Proof.
  split; [|split; [vm_compute; reflexivity|apply insert_non_empty]].
  intros j x E. unfold icsm in E. apply lookup_insert_Some in E as [[<- <-]|[_ E]]; [|apply lookup_singleton_Some in E as [<- <-]].
  - split; [done|]. exists rawa. split; [vm_compute; reflexivity|done].
  - split; [done|]. exists rawb. split; [vm_compute; reflexivity|done].
Qed.
Definition is_ok {A} (o : outcome A) : bool := match o with Ok _ => true | _ => false end.
Lemma is_ok_ex {A B} (o : outcome (A * B)) : is_ok o = true -> exists a b, o = Ok (a, b).
Proof. destruct o as [[a b]| |]; [eauto|discriminate..]. Qed.
Example ics_demo_run : exists st xs, run yot icsops = Ok (st, xs).
Proof. apply is_ok_ex. vm_compute. reflexivity. Qed.
(** ... and the computed proofs verify: presence of [rawa], absence of [rawc], and neither the other way round *)
Example ics_demo_verifies :
  match ics_demo rawa, ics_demo rawc with
  | Some (Some x, p), Some (None, q) =>
      verify_membership yot ics23_spec (b32 (smt_root yot icsm)) rawa va p && verify_non_membership yot ics23_spec (b32 (smt_root yot icsm)) rawc q
      && negb (verify_membership yot ics23_spec (b32 (smt_root yot icsm)) rawa vb p) && negb (verify_non_membership yot ics23_spec (b32 (smt_root yot icsm)) rawa q)
  | _, _ => false
  end = true.
Proof. vm_compute. reflexivity. Qed.
(** C57: the toy hash is not broken on these inputs *)
Example ics_demo_unbroken :
  match ics_demo rawa, ics_demo rawc with
  | Some (_, CPExist e), Some (_, CPNonexist n) => sound_b yot (root_inputs yot icsm ++ exist_inputs yot e) && sound_b yot (root_inputs yot icsm ++ nonexist_inputs yot n)
  | _, _ => false
  end = true.
Proof. vm_compute. reflexivity. Qed.
(** C44: the toy hashes of the two keys share 192 bits, so the proof of [rawa], which verifies, breaks the depth bound of
    the spec; with the bytes of the hashes reversed they share few bits and the bound holds. *)
Theorem C44_depth_bound_refuted : exists (H : list byte -> bytes32) pre ovf ops st xs v k x e,
  run H ops = Ok (st, xs) /\ readable ops v /\ get_with_ics23_proof H (store_reader st) pre ovf k v = Ok (Some x, CPExist e) /\
  verify_membership H ics23_spec (b32 (smt_root H (contents_at (history ops) v))) k x (CPExist e) = true /\ depth_ok ics23_spec e = false.
Proof.
  set (icsops := [Commit [[(toy rawa, Some va); (toy rawb, Some vb)]]]). assert (Z : exists st xs, run toy icsops = Ok (st, xs)) by (apply is_ok_ex; vm_compute; reflexivity).
  destruct Z as (st & xs & R).
  assert (C : contents_at (history icsops) 0 = {[ toy rawa := va; toy rawb := vb ]}) by (apply (bool_decide_unpack _); vm_compute; exact I).
  assert (L : readable icsops 0) by (split; vm_compute; congruence).
  destruct (C43_existence_complete toy icspre true icsops st xs 0 rawa va R L) as (e & E & V); [rewrite C; vm_compute; reflexivity|done|done|].
  destruct e as [e|n]; [|done]. exists toy, icspre, true, icsops, st, xs, 0%N, rawa, va, e. split; [exact R|]. split; [exact L|]. split; [exact E|]. split; [exact V|].
  destruct (depth_ok ics23_spec e) eqn:D; [exfalso|done]. apply (C44_depth_bound toy icspre true icsops st xs 0 rawa va e R L E) with (j := toy rawb) in D.
  - vm_compute in D. discriminate.
  - rewrite C. exists vb. vm_compute. reflexivity.
  - vm_compute. reflexivity.
Qed.
Example ics_demo_depth :
  match ics_demo rawa with Some (Some _, CPExist e) => depth_ok ics23_spec e && (1 <=? length (ep_path e)) | _ => false end = true.
Proof. vm_compute. reflexivity. Qed.
(** C58: a history with an empty value *)
Theorem C58_empty_value_refuted : exists (H : list byte -> bytes32) pre ovf ops st xs v k e,
  run H ops = Ok (st, xs) /\ readable ops v /\ k <> [] /\ get_with_ics23_proof H (store_reader st) pre ovf k v = Ok (Some [], e) /\
  forall root, verify_membership H ics23_spec root k [] e = false.
Proof.
  set (ops := [Commit [[(toy rawa, Some [])]]]). assert (Z : exists st xs, run toy ops = Ok (st, xs)) by (apply is_ok_ex; vm_compute; reflexivity).
  destruct Z as (st & xs & R). assert (L : readable ops 0) by (split; vm_compute; congruence).
  destruct (C58_empty_rejected toy icspre true ops st xs 0 rawa [] R L) as [_ (e & Ee & V)]; [vm_compute; reflexivity|by right|].
  exists toy, icspre, true, ops, st, xs, 0%N, rawa, e. split; [exact R|]. split; [exact L|]. split; [discriminate|]. split; [exact Ee|exact V].
Qed.
