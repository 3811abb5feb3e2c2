(** C102: which value reads the queries need. *)
From Coq Require Import Strings.String.
From Verif Require CommitMono ThmVersions.
From Verif Require Import Base Spec SpecOrder SpecRange NodeType ProofDef TreeCache Tree BatchTree Mock Driver Iterator Exclusion KeyFacts SmtFacts ProofFacts NodeFacts Canon CanonSib ReadFacts PutFacts InsertFacts PutTop VersionFacts ValueFacts StoreFacts DriverFacts DriverFacts2 LeafVersion KeyOrder OrderFacts IterFacts ExclFacts ThmProof ThmStore ThmStore2 ThmRange ThmIter ThmExcl Demo Toy ThmCrash ThmPurged ThmDamaged ThmOrigin ThmBackend ThmValues.
From Coq Require Import Lia.
Local Opaque Spec.smt root_inputs ms_in.

(** What a client reads of version [v] through [r] is the map [m], iteration apart. *)
Definition point_reads_as (H : list byte -> bytes32) (r : reader) (v : version) (m : gmap key value) : Prop :=
  (forall k, get r k v = Ok (m !! k)) /\
  (forall k, exists p, get_with_proof H r k v = Ok (m !! k, p) /\ verify H p (smt_root H m) k (m !! k) = Ok tt) /\
  get_root_hash H r v = Ok (smt_root H m) /\ get_root_hash_option H r v = Ok (Some (smt_root H m)) /\ get_leaf_count r v = Ok (size m) /\
  (forall ovf k x, m !! k = Some x -> exists p n, get_range_proof H r k v = Ok p /\ path_ends m k n /\
    range_verify H ovf p (smt_root H m) (LeafNode k (H x)) (left_hashes H m k n) = Ok tt) /\
  (forall k, m !! k = None -> m <> ∅ -> exists e, get_with_exclusion_proof H r k v = Ok (inr e) /\ names_neighbours H m k e) /\
  (forall k x, m !! k = Some x -> exists p, get_with_exclusion_proof H r k v = Ok (inl (x, p)) /\ verify H p (smt_root H m) k (Some x) = Ok tt).

Section point.
Context (H : list byte -> bytes32).
Implicit Types (ops : list op).
(** [rd] serves the nodes that the mock store has (and maybe more) *)
Definition serves_nodes (st : store) (rd : reader) : Prop := forall nk nd, st_nodes st !! nk = Some nd -> rd_node rd nk = Some nd.
(** a key is written in none of the versions after [w] up to [v] *)
Definition unwritten ops (k : key) (w v : version) : Prop := forall i (s : value_set), history ops !! i = Some s -> (w < N.of_nat i <= v)%N -> k ∉ map fst s.

Lemma stored_served ops st xs v rd : run H ops = Ok (st, xs) -> readable ops v -> serves_nodes st rd ->
  exists x, (xrun H tb0 ops).1 !! N.to_nat v = Some x /\ a_map (vs_a x) = H <$> contents_at (history ops) v /\ stored H rd (H <$> contents_at (history ops) v) (a_ver (vs_a x)) v.
Proof.
  intros R [L1 L2] Sv. pose proof R as R0. apply run_inv in R0 as [_ S]. destruct (read_ok H _ _ _ _ _ v S L1 L2) as (x & E & Vx & Mx & [Rt K]). exists x. split; [done|]. split; [exact Mx|].
  split; [apply Sv; exact Rt|]. intros p Hp n Ne. apply Sv. by apply K.
Qed.
Lemma stored_point ver r v (m : gmap key value) : stored H r (H <$> m) ver v -> (forall k, rd_value r v k = m !! k) -> point_reads_as H r v m.
Proof.
  intros St Hk.
  assert (P : forall k, exists p, get_with_proof H r k v = Ok (m !! k, p) /\ verify H p (smt_root H m) k (m !! k) = Ok tt).
  { intros k. destruct (get_with_proof_canon H r m ver k v St Hk) as (n & T & E). eexists. split; [exact E|]. by apply hproof_verifies. }
  destruct (get_root_hash_canon H _ _ _ _ St) as [R1 R2]. rewrite ms_nil in R1, R2.
  unfold point_reads_as. split_and!.
  - intros k. unfold get. by rewrite Hk.
  - exact P.
  - exact R1.
  - exact R2.
  - by rewrite (get_leaf_count_canon H _ _ _ _ St), map_size_fmap.
  - intros ovf k x Ex. destruct (get_with_proof_canon H r m ver k v St Hk) as (n & T & E). destruct (range_from_proof H ovf r m v k x n Ex T E) as (p & Q). exists p, n. exact Q.
  - intros k Nk Ne. unfold get_with_exclusion_proof. destruct (P k) as (p & -> & _). rewrite Nk, bind_Ok. cbn beta iota.
    assert (Sh : forall k', is_Some (m !! k') -> exists x p, get_with_proof H r k' v = Ok (Some x, p) /\ shows H m k' p).
    { intros k' [x Ex]. destruct (P k') as (p' & E & V). rewrite Ex in E, V. exists x, p'. split; [done|]. exists x. split; [done|exact V]. }
    destruct (bounding_ok H (H <$> m) ver r v St k) as (l & rr & -> & Nl & Nr); [by rewrite lookup_fmap, Nk|intros Z; by apply fmap_empty_inv in Z|].
    rewrite bind_Ok. cbn beta iota.
    assert (E : forall j, is_Some ((H <$> m) !! j) <-> is_Some (m !! j)) by (intros; rewrite lookup_fmap; apply fmap_is_Some).
    destruct l as [kl|], rr as [kr|].
    + apply nearest_pred in Nl. apply nearest_succ in Nr.
      destruct (Sh kl (proj1 Nl)) as (xl & pl & -> & Sl). rewrite bind_Ok. cbn beta iota.
      destruct (Sh kr (proj1 Nr)) as (xr & pr & -> & Sr). rewrite bind_Ok. cbn beta iota.
      eexists. split; [done|]. split; eauto.
    + apply nearest_pred in Nl. destruct (Sh kl (proj1 Nl)) as (xl & pl & -> & Sl). rewrite bind_Ok. cbn beta iota.
      eexists. split; [done|]. split; [|eauto]. intros j Ij L. by apply (Nr j); [apply E|].
    + apply nearest_succ in Nr. destruct (Sh kr (proj1 Nr)) as (xr & pr & -> & Sr). rewrite bind_Ok. cbn beta iota.
      eexists. split; [done|]. split; [|eauto]. intros j Ij L. by apply (Nl j); [apply E|].
    + exfalso. apply Ne. apply map_empty. intros j. destruct (m !! j) as [y|] eqn:Ej; [|done]. exfalso.
      destruct (key_lt_total j k) as [L|[->|L]]; [|congruence|]; [apply (Nl j)|apply (Nr j)]; rewrite ?E; eauto.
  - intros k x Ex. unfold get_with_exclusion_proof. destruct (P k) as (p & -> & V). rewrite Ex in *. rewrite bind_Ok. cbn beta iota. eauto.
Qed.
(** To answer everything but iteration about version [v], a store need only answer value requests at [v] itself rightly. *)
Theorem C102_point ops st xs v rd : run H ops = Ok (st, xs) -> readable ops v -> serves_nodes st rd ->
  (forall k, rd_value rd v k = contents_at (history ops) v !! k) -> point_reads_as H rd v (contents_at (history ops) v).
Proof. intros R Rv Sv Hk. destruct (stored_served ops st xs v rd R Rv Sv) as (x & _ & _ & St). exact (stored_point _ _ _ _ St Hk). Qed.
(** To iterate over version [v] as well, it is enough that a key's value is also answered rightly at the versions from its last write up to [v]. *)
Theorem C102_iterates ops st xs v rd : run H ops = Ok (st, xs) -> readable ops v -> serves_nodes st rd ->
  (forall w k, (w <= v)%N -> unwritten ops k w v -> rd_value rd w k = contents_at (history ops) v !! k) -> reader_reads_as H rd v (contents_at (history ops) v).
Proof.
  intros R Rv Sv Hk. destruct (stored_served ops st xs v rd R Rv Sv) as (x & Ex & Mx & St). set (m := contents_at (history ops) v) in *. apply view_reader. exists (a_ver (vs_a x)). split; [exact St|]. split.
  - intros p n k y Mn EU. assert (Ey : m !! k = Some y). { assert (X : U (p ++ [n]) m !! k = Some y) by (rewrite EU; apply lookup_singleton). by apply U_lookup in X as [? _]. }
    destruct (leaf_unwritten H ops x (N.to_nat v) k (p ++ [n]) (H y)) as [Lw Nw]; [done|destruct p; discriminate|rewrite parent_snoc, Mx, U_fm_size; done|rewrite Mx, U_fm, EU; apply map_fmap_singleton|].
    rewrite N2Nat.id in Lw, Nw. rewrite Hk; [exact Ey|exact Lw|]. intros i s Es Li Ik. apply elem_of_list_fmap in Ik as ([k' z] & -> & Ik). cbn [fst] in *.
    destruct (ThmStore.last_write_cases s k') as [[_ Ln]|(u & l1 & l2 & Lu & _)]; [by apply (Ln z)|].
    enough (N.of_nat i <= a_ver (vs_a x) (p ++ [n]))%N by lia. apply (Nw (N.of_nat i) u); [|lia]. apply elem_of_hl. exists i, s. done.
  - intros k. apply Hk; [lia|]. intros i s _ Li. lia.
Qed.
(** A store that keeps a single value for each key, the current one, serves the latest version completely. *)
Theorem C102_flat ops st xs rd : run H ops = Ok (st, xs) -> (0 < num_versions ops)%N -> serves_nodes st rd -> let v := (num_versions ops - 1)%N in
  (forall w k, rd_value rd w k = contents_at (history ops) v !! k) -> reader_reads_as H rd v (contents_at (history ops) v).
Proof. intros R L Sv v Hk. eapply C102_iterates; [exact R|apply latest_readable; lia|exact Sv|]. intros w k _ _. apply Hk. Qed.
End point.
Lemma yields_no_error rd it l e : yields rd it l -> iter_next rd it = Err e -> False.
Proof. intros [? E|? ? ? ? E _] E'; congruence. Qed.

(** *** Answering value requests rightly at every version that is still readable is not enough to iterate: when the records up to the pruning version are kept under that version
    (as one would squash them), the queries above are answered, and the iterator, which asks for the value of a leaf at the version in which its node was made, fails. *)
Definition squash_ops : list op := [Commit [[(K00, Some va); (K80, Some vb)]]; Commit [[(KC0, Some vc)]]; Purge 1].
(** the values at version 1 and later as they are, none below *)
Definition squashed (st : store) : reader :=
  mkReader (rd_node (store_reader st)) (fun v k => if (v <? 1)%N then None else rd_value (store_reader st) v k) (rd_rightmost (store_reader st)).
Theorem C102_squashed_refuted : exists st xs it, run toy squash_ops = Ok (st, xs) /\ readable squash_ops 1 /\
  (forall v k, readable squash_ops v -> rd_value (squashed st) v k = contents_at (history squash_ops) v !! k) /\
  point_reads_as toy (squashed st) 1 (contents_at (history squash_ops) 1) /\
  iter_new (squashed st) 1 K00 = Ok it /\ (exists e, iter_next (squashed st) it = Err e) /\ ~ reader_reads_as toy (squashed st) 1 (contents_at (history squash_ops) 1).
Proof.
  assert (X : match run toy squash_ops with Ok (st, _) => match iter_new (squashed st) 1 K00 with Ok it => match iter_next (squashed st) it with Err _ => true | _ => false end | _ => false end | _ => false end = true) by (vm_compute; reflexivity).
  destruct (run toy squash_ops) as [[st xs]| |] eqn:R; [|discriminate X|discriminate X]. destruct (iter_new (squashed st) 1 K00) as [it| |] eqn:I; [|discriminate X|discriminate X].
  destruct (iter_next (squashed st) it) as [?|e|] eqn:Nx; [discriminate X| |discriminate X]. clear X.
  assert (Rv : readable squash_ops 1) by (split; vm_compute; [discriminate|reflexivity]).
  assert (Hk : forall v k, readable squash_ops v -> rd_value (squashed st) v k = contents_at (history squash_ops) v !! k).
  { intros v k Rv'. cbn [squashed rd_value]. assert (F : (1 <= v)%N) by (destruct Rv' as [F _]; exact F). destruct (N.ltb_spec v 1) as [L|L]; [lia|].
    pose proof R as R0. apply run_inv in R0 as [_ S0]. by eapply value_ok. }
  assert (Pt : point_reads_as toy (squashed st) 1 (contents_at (history squash_ops) 1)).
  { eapply (C102_point toy squash_ops st xs 1 (squashed st) R Rv); [intros nk nd E; exact E|]. intros k. apply Hk, Rv. }
  exists st, xs, it. split; [exact eq_refl|]. split; [exact Rv|]. split; [exact Hk|]. split; [exact Pt|]. split; [exact I|]. split; [exists e; exact Nx|].
  intros (_ & _ & _ & _ & _ & _ & _ & _ & It & _). destruct (It K00) as (it' & I' & Y). rewrite I in I'. injection I' as <-. exact (yields_no_error _ _ _ _ Y Nx).
Qed.
(** the demo history on such a store *)
Theorem demo_flat : exists st xs, run toy demo = Ok (st, xs) /\ num_versions demo = 5%N /\ reader_reads_as toy (mkReader (rd_node (store_reader st)) (fun _ k => demo_map !! k) (rd_rightmost (store_reader st))) 4 demo_map.
Proof.
  assert (Ec : contents_at (history demo) 4 = demo_map) by (apply (bool_decide_eq_true_1 _); vm_compute; reflexivity).
  destruct (ThmStore.C20_run_never_fails toy demo) as (st & xs & R). exists st, xs. split; [exact R|]. split; [vm_compute; reflexivity|].
  pose proof (C102_flat toy demo st xs (mkReader (rd_node (store_reader st)) (fun _ k => demo_map !! k) (rd_rightmost (store_reader st))) R) as Q. cbn zeta in Q.
  assert (En : num_versions demo = 5%N) by (vm_compute; reflexivity). rewrite En in Q. change (5 - 1)%N with 4%N in Q. rewrite Ec in Q. apply Q; [reflexivity|intros nk nd E; exact E|intros; reflexivity].
Qed.
