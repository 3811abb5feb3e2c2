(** C28, C29, C30: exclusion proofs over all histories. *)
From Coq Require Import Strings.String.
From Verif Require Import Base Spec SpecOrder NodeType ProofDef TreeCache Tree Mock Driver Exclusion KeyFacts SmtFacts ProofFacts NodeFacts Canon CanonSib ReadFacts PutFacts InsertFacts PutTop VersionFacts ValueFacts StoreFacts DriverFacts KeyOrder OrderFacts ExclFacts ThmProof ThmStore Demo.
From Coq Require Import Lia.
Local Opaque Spec.smt.

Section thm.
Context (H : list byte -> bytes32).
(** [p] proves, against the root of [m], that [k'] is in [m] with its value; *)
Definition shows (m : gmap key value) (k' : key) (p : sm_proof) : Prop :=
  exists x, m !! k' = Some x /\ verify_existence H p (smt_root H m) k' x = Ok tt.
(** [e] names the true neighbours of [k] in [m]: the greatest smaller and the least greater key, where there is one. *)
Definition names_neighbours (m : gmap key value) (k : key) (e : exclusion_proof) : Prop :=
  let none_below := forall j, is_Some (m !! j) -> ~ key_lt j k in
  let none_above := forall j, is_Some (m !! j) -> ~ key_lt k j in
  match e with
  | EPLeftmost r => none_below /\ exists kr, succ_key m k kr /\ shows m kr r
  | EPMiddle r l => (exists kl, pred_key m k kl /\ shows m kl l) /\ (exists kr, succ_key m k kr /\ shows m kr r)
  | EPRightmost l => none_above /\ exists kl, pred_key m k kl /\ shows m kl l
  end.

Lemma nearest_pred (m : gmap key value) k kl : nearest (H <$> m) ELeft k (Some kl) -> pred_key m k kl.
Proof.
  assert (E : forall j, is_Some ((H <$> m) !! j) <-> is_Some (m !! j)) by (intros; rewrite lookup_fmap; apply fmap_is_Some).
  intros (A & B & C). split; [by apply E|]. split; [done|]. intros j Ij L. destruct (C j) as [->|]; [by apply E|done|by left|by right].
Qed.
Lemma nearest_succ (m : gmap key value) k kr : nearest (H <$> m) ERight k (Some kr) -> succ_key m k kr.
Proof.
  assert (E : forall j, is_Some ((H <$> m) !! j) <-> is_Some (m !! j)) by (intros; rewrite lookup_fmap; apply fmap_is_Some).
  intros (A & B & C). split; [by apply E|]. split; [done|]. intros j Ij L. destruct (C j) as [->|]; [by apply E|done|by left|by right].
Qed.

Lemma read_bounds ops st xs v k : run H ops = Ok (st, xs) -> readable ops v -> let m := contents_at (history ops) v in
  m !! k = None -> m <> ∅ -> exists l r, get_bounding_path (store_reader st) k v = Ok (l, r) /\ nearest (H <$> m) ELeft k l /\ nearest (H <$> m) ERight k r.
Proof.
  intros R [L1 L2] m Hk Ne. apply run_inv in R as [_ S]. destruct (read_ok H _ _ _ _ _ v S L1 L2) as (x & E & Vx & Mx & St).
  eapply (bounding_ok H); [exact St|by rewrite lookup_fmap, Hk|]. intros Z. by apply fmap_empty_inv in Z.
Qed.
Lemma read_shows ops st xs v k' : run H ops = Ok (st, xs) -> readable ops v -> let m := contents_at (history ops) v in
  is_Some (m !! k') -> exists x p, get_with_proof H (store_reader st) k' v = Ok (Some x, p) /\ shows m k' p.
Proof.
  intros R L m [x Ex]. destruct (C02_get_with_proof H ops st xs k' v R L) as (p & E). fold m in E. rewrite Ex in E. exists x, p. split; [done|].
  exists x. split; [done|]. destruct (C06_existence_complete H ops st xs k' v x p R L E) as (r & Er & V). destruct (C03_root_hash H ops st xs v R L) as [Er' _].
  rewrite Er in Er'. injection Er' as ->. done.
Qed.

(** C28 (and the first half of C29): an absent key in a non-empty version gets an exclusion proof, naming its true
    neighbours, whose proofs verify. *)
Theorem C28_exclusion_names_neighbours (ops : list op) st xs (v : version) (k : key) : run H ops = Ok (st, xs) -> readable ops v ->
  let m := contents_at (history ops) v in m !! k = None -> m <> ∅ ->
  exists e, get_with_exclusion_proof H (store_reader st) k v = Ok (inr e) /\ names_neighbours m k e.
Proof.
  intros R L m Hk Ne. unfold get_with_exclusion_proof. destruct (C02_get_with_proof H ops st xs k v R L) as (p & ->). fold m. rewrite Hk, bind_Ok. cbn beta iota.
  destruct (read_bounds ops st xs v k R L Hk Ne) as (l & r & -> & Nl & Nr). rewrite bind_Ok. cbn beta iota. fold m in Nl, Nr.
  assert (E : forall j, is_Some ((H <$> m) !! j) <-> is_Some (m !! j)) by (intros; rewrite lookup_fmap; apply fmap_is_Some).
  destruct l as [kl|], r as [kr|].
  - apply nearest_pred in Nl. apply nearest_succ in Nr.
    destruct (read_shows ops st xs v kl R L (proj1 Nl)) as (xl & pl & -> & Sl). rewrite bind_Ok. cbn beta iota.
    destruct (read_shows ops st xs v kr R L (proj1 Nr)) as (xr & pr & -> & Sr). rewrite bind_Ok. cbn beta iota.
    eexists. split; [done|]. split; eauto.
  - apply nearest_pred in Nl. destruct (read_shows ops st xs v kl R L (proj1 Nl)) as (xl & pl & -> & Sl). rewrite bind_Ok. cbn beta iota.
    eexists. split; [done|]. split; [|eauto]. intros j Ij. apply Nr. by apply E.
  - apply nearest_succ in Nr. destruct (read_shows ops st xs v kr R L (proj1 Nr)) as (xr & pr & -> & Sr). rewrite bind_Ok. cbn beta iota.
    eexists. split; [done|]. split; [|eauto]. intros j Ij. apply Nl. by apply E.
  - exfalso. apply map_choose in Ne as (j & x & Ej). assert (Ij : is_Some (m !! j)) by by eexists. apply E in Ij.
    destruct (key_lt_total j k) as [T|[->|T]]; [by apply (Nl j Ij)|congruence|by apply (Nr j Ij)].
Qed.
(** C29: a present key gets its value and a proof of existence that verifies. *)
Theorem C29_present_key (ops : list op) st xs (v : version) (k : key) x : run H ops = Ok (st, xs) -> readable ops v ->
  contents_at (history ops) v !! k = Some x ->
  exists p, get_with_exclusion_proof H (store_reader st) k v = Ok (inl (x, p)) /\
    verify_existence H p (smt_root H (contents_at (history ops) v)) k x = Ok tt.
Proof.
  intros R L Hk. destruct (read_shows ops st xs v k R L) as (x' & p & E & y & Ey & V); [by eexists|]. rewrite Hk in Ey. injection Ey as <-.
  unfold get_with_exclusion_proof. pose proof E as E2. destruct (C02_get_with_proof H ops st xs k v R L) as (p' & E3). rewrite E2, Hk in E3. injection E3 as -> ->.
  rewrite E, bind_Ok. exists p'. done.
Qed.
(** C30: an empty version has no exclusion proof, for any key, though the plain non-existence proof exists and verifies. *)
Theorem C30_no_exclusion_proof_when_empty (ops : list op) st xs (v : version) (k : key) : run H ops = Ok (st, xs) -> readable ops v ->
  contents_at (history ops) v = ∅ ->
  get_with_exclusion_proof H (store_reader st) k v = Err (EOther "Cannot manufacture nonexistence proof by exclusion for the empty tree") /\
  exists p, get_with_proof H (store_reader st) k v = Ok (None, p) /\ verify_nonexistence H p SPARSE_MERKLE_PLACEHOLDER_HASH k = Ok tt.
Proof.
  intros R L Em. destruct (C02_get_with_proof H ops st xs k v R L) as (p & E). rewrite Em, lookup_empty in E. split.
  - unfold get_with_exclusion_proof. rewrite E, bind_Ok. cbn beta iota. destruct L as [L1 L2]. apply run_inv in R as [_ S].
    destruct (read_ok H _ _ _ _ _ v S L1 L2) as (x & _ & _ & _ & [St _]).
    unfold get_bounding_path, search_for_closest_node, nk_root. rewrite Em in St.
    assert (N : rd_node (store_reader st) (v, []) = Some Null) by (rewrite St; f_equal; apply node_at_null; by rewrite U_nil, fmap_empty).
    destruct (key_nibbles k); cbn [search_loop]; rewrite N; reflexivity.
  - exists p. split; [done|]. destruct (C07_nonexistence_complete H ops st xs k v p R L E) as (r & Er & V). destruct (C03_root_hash H ops st xs v R L) as [Er' _].
    rewrite Er, Em in Er'. injection Er' as ->. replace (smt_root H ∅) with SPARSE_MERKLE_PLACEHOLDER_HASH in V; [done|].
    unfold smt_root. rewrite fmap_empty, map_to_list_empty. with_strategy transparent [Spec.smt] reflexivity.
Qed.

(** demo: version 3 holds K00 and KC0; K80 lies between them *)
Example demo_exclusion st xs : run H demo = Ok (st, xs) -> exists r l, get_with_exclusion_proof H (store_reader st) K80 3 = Ok (inr (EPMiddle r l)).
Proof.
  intros R. pose proof demo_contents as (_ & _ & E2 & E3 & _). destruct (C28_exclusion_names_neighbours demo st xs 3 K80 R) as (e & E & N).
  { apply demo_readable. } { rewrite E3, E2. vm_compute. reflexivity. } { rewrite E3, E2. apply insert_non_empty. }
  rewrite E3, E2 in N. destruct e as [r|r l|l]; [| eauto|]; exfalso; destruct N as [N _].
  - apply (N K00); [|vm_compute; reflexivity]. exists vb. vm_compute. reflexivity.
  - apply (N KC0); [|vm_compute; reflexivity]. exists vc. vm_compute. reflexivity.
Qed.
End thm.
(** an empty version is reachable *)
Example demo_empty (H : list byte -> bytes32) st xs : run H [Commit [[(K00, Some va)]; [(K00, None)]]] = Ok (st, xs) ->
  exists e, get_with_exclusion_proof H (store_reader st) K80 1 = Err e.
Proof.
  intros R. eexists. apply (C30_no_exclusion_proof_when_empty H _ st xs 1 K80 R); [split; vm_compute; congruence|].
  apply (bool_decide_unpack _). vm_compute. exact I.
Qed.
