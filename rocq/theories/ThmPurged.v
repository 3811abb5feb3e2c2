(** C64: a version that was purged, or is being purged, never answers wrongly. *)
From Verif Require Import Base Spec SpecOrder SpecRange NodeType ProofDef TreeCache Tree Mock Driver Iterator Exclusion KeyFacts SmtFacts ProofFacts NodeFacts Canon CanonSib ReadFacts PutFacts InsertFacts PutTop VersionFacts ValueFacts StoreFacts DriverFacts DriverFacts2 LeafVersion KeyOrder OrderFacts IterFacts ExclFacts ThmProof ThmStore ThmRange ThmIter ThmExcl ThmCrash ThmConc Demo Toy.
From Coq Require Import Lia.
Local Opaque Spec.smt.

(** *** Specification *)
(** Whatever the reader [r] answers about version [v] is true of the map [m]; it may also fail. *)
Definition answers_truly (H : list byte -> bytes32) (r : reader) (v : version) (m : gmap key value) : Prop :=
  (forall k y, get r k v = Ok y -> y = m !! k) /\
  (forall k y p, get_with_proof H r k v = Ok (y, p) -> y = m !! k /\ verify H p (smt_root H m) k y = Ok tt) /\
  (forall h, get_root_hash H r v = Ok h -> h = smt_root H m) /\
  (forall h, get_root_hash_option H r v = Ok (Some h) -> h = smt_root H m) /\
  (forall n, get_leaf_count r v = Ok n -> n = size m) /\
  (forall ovf k p, get_range_proof H r k v = Ok p -> exists x n, m !! k = Some x /\ path_ends m k n /\
    range_verify H ovf p (smt_root H m) (LeafNode k (H x)) (left_hashes H m k n) = Ok tt) /\
  (forall k e, get_with_exclusion_proof H r k v = Ok (inr e) -> m !! k = None /\ m <> ∅ /\ names_neighbours H m k e) /\
  (forall k x p, get_with_exclusion_proof H r k v = Ok (inl (x, p)) -> m !! k = Some x /\ verify H p (smt_root H m) k (Some x) = Ok tt).
(** Each item the iterator gives, with any of the readers [P] at each step, is the next item of [l]; its end is the end of [l]. *)
Fixpoint yields_truly (P : reader -> Prop) (it : jmt_iter) (l : list (key * value)) : Prop :=
  match l with
  | [] => forall rd y it', P rd -> iter_next rd it = Ok (y, it') -> y = None /\ it' = it
  | kx :: l' => forall rd y it', P rd -> iter_next rd it = Ok (y, it') -> y = Some kx /\ yields_truly P it' l'
  end.
Section spec.
Context (H : list byte -> bytes32).
(** The states the store passes through after the operations [ops], whatever is done next: between two operations, in
    the middle of writing a batch, in the middle of a purge. *)
Inductive passes_any (ops : list op) : store -> Prop :=
| any_between more st xs : run H (ops ++ more) = Ok (st, xs) -> passes_any ops st
| any_commit more st xs o x b st1 s : run H (ops ++ more) = Ok (st, xs) ->
    step H st (num_versions (ops ++ more)) o = Ok (st1, x) -> out_batch x = Some b -> partly_written b st s -> passes_any ops s
| any_purge more st xs l s : run H (ops ++ more) = Ok (st, xs) -> partly_purged l st s -> passes_any ops s.
(** A reader that answers each request for a node or a value from one of those states. *)
Definition concurrent_any (ops : list op) (rd : reader) : Prop :=
  (forall nk, exists s, passes_any ops s /\ rd_node rd nk = st_nodes s !! nk) /\
  (forall w k, exists s, passes_any ops s /\ rd_value rd w k = store_value s w k).
End spec.

(** *** A reader with more nodes answers the same wherever the one with less nodes answers *)
Lemma bind_inv' {A B} (x : outcome A) (f : A -> outcome B) y : (x ≫= f) = Ok y -> exists a, x = Ok a /\ f a = Ok y.
Proof. destruct x; cbn; [eauto|done|done]. Qed.
Section mono.
Context (H : list byte -> bytes32) (rd rd' : reader).
Context (Le : forall nk nd, rd_node rd nk = Some nd -> rd_node rd' nk = Some nd).
Context (Lv : forall w k x, rd_value rd w k = Some x -> rd_value rd' w k = Some x).
Lemma get_node_le nk nd : rd_get_node rd nk = Ok nd -> rd_get_node rd' nk = Ok nd.
Proof. unfold rd_get_node. destruct (rd_node rd nk) eqn:E; cbn; [|done]. intros [= ->]. by rewrite (Le _ _ E). Qed.
Lemma ok_node_le e nk nd : ok_or e (rd_node rd nk) = Ok nd -> ok_or e (rd_node rd' nk) = Ok nd.
Proof. destruct (rd_node rd nk) eqn:E; cbn; [|done]. intros [= ->]. by rewrite (Le _ _ E). Qed.
Lemma get_value_le w k x : rd_get_value rd w k = Ok x -> rd_get_value rd' w k = Ok x.
Proof. unfold rd_get_value. destruct (rd_value rd w k) eqn:E; cbn; [|done]. intros [= ->]. by rewrite (Lv _ _ _ E). Qed.
Lemma build_sibling_le nk i s h bm y : build_sibling H (rd_node rd) nk i s h bm = Ok y -> build_sibling H (rd_node rd') nk i s h bm = Ok y.
Proof.
  unfold build_sibling. intros E. apply bind_inv' in E as (rb & -> & E). rewrite bind_Ok.
  destruct (rb.1 =? 0)%N; [done|]. destruct (has_only_child h rb.1 rb.2); [|done].
  apply bind_inv' in E as (n & -> & E). rewrite bind_Ok. apply bind_inv' in E as (c & -> & E). rewrite bind_Ok.
  apply bind_inv' in E as (nd & En & E). destruct (rd_node rd _) eqn:F; [|done]. injection En as ->. rewrite (Le _ _ F). exact E.
Qed.
Lemma siblings_loop_le nk i n only bm hs : forall sibs y, siblings_loop H (rd_node rd) nk i n only bm hs sibs = Ok y ->
  siblings_loop H (rd_node rd') nk i n only bm hs sibs = Ok y.
Proof.
  induction hs as [|h IH]; intros sibs y E; cbn [siblings_loop] in *; [done|].
  apply bind_inv' in E as (s & Es & E). rewrite (build_sibling_le _ _ _ _ _ _ Es), bind_Ok. cbn zeta in *.
  apply bind_inv' in E as (rb & -> & E). rewrite bind_Ok. destruct (rb.1 =? 0)%N; [done|].
  destruct (only && has_only_child h rb.1 rb.2); [done|]. destruct (negb only && _); [done|]. by apply IH.
Qed.
Lemma gwp_loop_le k v rem : forall top nk sibs y, get_with_proof_loop H rd k v rem top nk sibs = Ok y -> get_with_proof_loop H rd' k v rem top nk sibs = Ok y.
Proof.
  induction rem as [|n rem IH]; intros top nk sibs y E; cbn [get_with_proof_loop] in *; apply bind_inv' in E as (nd & En & E); rewrite (ok_node_le _ _ _ En), bind_Ok.
  - destruct nd; [exact E|exact E|]. apply bind_inv' in E as (x & Ex & E). case_decide.
    + apply bind_inv' in Ex as (z & Ez & Ex). rewrite (get_value_le _ _ _ Ez), bind_Ok, Ex, bind_Ok. exact E.
    + rewrite Ex, bind_Ok. exact E.
  - destruct nd; [exact E| |].
    + apply bind_inv' in E as ([ck s] & Es & E). unfold get_only_child_with_siblings, get_child_with_siblings_helper in *.
      apply bind_inv' in Es as (bm & -> & Es). rewrite bind_Ok, (siblings_loop_le _ _ _ _ _ _ _ _ Es), bind_Ok. cbn beta iota zeta in *. destruct ck; [by apply IH|exact E].
    + apply bind_inv' in E as (x & Ex & E). case_decide.
      * apply bind_inv' in Ex as (z & Ez & Ex). rewrite (get_value_le _ _ _ Ez), bind_Ok, Ex, bind_Ok. exact E.
      * rewrite Ex, bind_Ok. exact E.
Qed.
Lemma gwp_le k v y : get_with_proof H rd k v = Ok y -> get_with_proof H rd' k v = Ok y.
Proof. apply gwp_loop_le. Qed.
Lemma range_le k v y : get_range_proof H rd k v = Ok y -> get_range_proof H rd' k v = Ok y.
Proof. unfold get_range_proof. intros E. apply bind_inv' in E as ([x p] & Ep & E). rewrite (gwp_le _ _ _ Ep), bind_Ok. exact E. Qed.
Lemma root_hash_le v y : get_root_hash H rd v = Ok y -> get_root_hash H rd' v = Ok y.
Proof. unfold get_root_hash, get_root_node_option. intros E. apply bind_inv' in E as (nd & En & E). rewrite (ok_node_le _ _ _ En), bind_Ok. exact E. Qed.
Lemma root_hash_option_le v y : get_root_hash_option H rd v = Ok (Some y) -> get_root_hash_option H rd' v = Ok (Some y).
Proof. unfold get_root_hash_option, get_root_node_option. destruct (rd_node rd (nk_root v)) eqn:E; [|done]. by rewrite (Le _ _ E). Qed.
Lemma leaf_count_le v y : get_leaf_count rd v = Ok y -> get_leaf_count rd' v = Ok y.
Proof. unfold get_leaf_count, get_root_node_option. intros E. apply bind_inv' in E as (nd & En & E). rewrite (ok_node_le _ _ _ En), bind_Ok. exact E. Qed.
Lemma extreme_le f : forall d v nk e y, extreme_loop rd f d v nk e = Ok y -> extreme_loop rd' f d v nk e = Ok y.
Proof.
  induction f as [|f IH]; intros d v nk e y E; cbn [extreme_loop] in *; [done|]. apply bind_inv' in E as (nd & En & E). rewrite (ok_node_le _ _ _ En), bind_Ok.
  destruct nd; [exact E| |exact E]. apply bind_inv' in E as (n & -> & E). rewrite bind_Ok. apply bind_inv' in E as (ck & -> & E). rewrite bind_Ok. destruct ck; [by apply IH|exact E].
Qed.
Lemma closest_le v e rp : forall rps y, closest_loop rd v e rp rps = Ok y -> closest_loop rd' v e rp rps = Ok y.
Proof.
  induction rp as [|i rp IH]; intros [|q rps] y E; cbn [closest_loop] in *; [done..|]. destruct (neighbor_nibble q i e) as [[nb w]|]; [|by apply IH].
  cbn zeta in *. apply bind_inv' in E as (k & Ek & E). unfold get_extreme_key_hash in *. rewrite (extreme_le _ _ _ _ _ _ Ek), bind_Ok. exact E.
Qed.
Lemma search_le k v rem : forall vis nk ps y, search_loop rd k v rem vis nk ps = Ok y -> search_loop rd' k v rem vis nk ps = Ok y.
Proof.
  induction rem as [|n rem IH]; intros vis nk ps y E; cbn [search_loop] in *; apply bind_inv' in E as (nd & En & E); rewrite (ok_node_le _ _ _ En), bind_Ok; [exact E|].
  destruct nd; [exact E| |exact E]. cbn zeta in *. apply bind_inv' in E as (ck & -> & E). rewrite bind_Ok. destruct ck; [by apply IH|exact E].
Qed.
Lemma bounding_le k v y : get_bounding_path rd k v = Ok y -> get_bounding_path rd' k v = Ok y.
Proof.
  unfold get_bounding_path, search_for_closest_node, search_closest_extreme_node. intros E. apply bind_inv' in E as (r & Er & E). rewrite (search_le _ _ _ _ _ _ _ Er), bind_Ok.
  destruct r as [[] leaf path ps|path ps]; [exact E|..].
  - apply bind_inv' in E as (x & Ex & E). rewrite (closest_le _ _ _ _ _ Ex), bind_Ok. exact E.
  - apply bind_inv' in E as (x & Ex & E). rewrite (closest_le _ _ _ _ _ Ex), bind_Ok. exact E.
  - apply bind_inv' in E as (x & Ex & E). rewrite (closest_le _ _ _ _ _ Ex), bind_Ok. apply bind_inv' in E as (z & Ez & E). rewrite (closest_le _ _ _ _ _ Ez), bind_Ok. exact E.
Qed.
Lemma excl_le k v y : get_with_exclusion_proof H rd k v = Ok y -> get_with_exclusion_proof H rd' k v = Ok y.
Proof.
  unfold get_with_exclusion_proof. intros E. apply bind_inv' in E as ([x p] & Ep & E). rewrite (gwp_le _ _ _ Ep), bind_Ok. cbn beta iota in *. destruct x; [exact E|].
  apply bind_inv' in E as ([l r] & Eb & E). rewrite (bounding_le _ _ _ Eb), bind_Ok. cbn beta iota in *. destruct l, r; [..|exact E].
  all: apply bind_inv' in E as ([x1 p1] & E1 & E); rewrite (gwp_le _ _ _ E1), bind_Ok; cbn beta iota in *; try exact E.
  apply bind_inv' in E as ([x2 p2] & E2 & E). rewrite (gwp_le _ _ _ E2), bind_Ok. exact E.
Qed.
Lemma iter_new_loop_le v start rem : forall nk st y, iter_new_loop rd v start rem nk st = Ok y -> iter_new_loop rd' v start rem nk st = Ok y.
Proof.
  induction rem as [|n rem IH]; intros nk st y E; cbn [iter_new_loop] in *; apply bind_inv' in E as (nd & En & E); rewrite (get_node_le _ _ En), bind_Ok.
  - destruct nd; try exact E; rewrite En, bind_Ok in E; by rewrite bind_Ok.
  - destruct nd; try (rewrite En, bind_Ok in E; by rewrite bind_Ok).
    destruct (in_child _ n); [|exact E]. apply bind_inv' in E as (x & -> & E). rewrite bind_Ok. by apply IH.
Qed.
Lemma iter_new_le v start y : iter_new rd v start = Ok y -> iter_new rd' v start = Ok y.
Proof. apply iter_new_loop_le. Qed.
Lemma iter_index_loop_le f : forall v t s nk nd st y, iter_index_loop rd f v t s nk nd st = Ok y -> iter_index_loop rd' f v t s nk nd st = Ok y.
Proof.
  induction f as [|f IH]; intros v t s nk nd st y E; cbn [iter_index_loop] in *; [done|]. destruct nd; [exact E| |exact E].
  apply bind_inv' in E as ([[n c] s'] & -> & E). rewrite bind_Ok. cbn beta iota in *. apply bind_inv' in E as (x & -> & E). rewrite bind_Ok.
  apply bind_inv' in E as (nd & En & E). rewrite (get_node_le _ _ En), bind_Ok. by apply IH.
Qed.
Lemma iter_new_by_index_le v i y : iter_new_by_index rd v i = Ok y -> iter_new_by_index rd' v i = Ok y.
Proof.
  unfold iter_new_by_index. intros E. apply bind_inv' in E as (nd & En & E). rewrite (get_node_le _ _ En), bind_Ok. destruct (node_leaf_count nd <=? i); [exact E|]. by apply iter_index_loop_le.
Qed.
Lemma iter_next_loop_le f : forall v st y, iter_next_loop rd f v st = Ok y -> iter_next_loop rd' f v st = Ok y.
Proof.
  induction f as [|f IH]; intros v st y E; cbn [iter_next_loop] in *; [done|]. destruct st as [|x st]; [done|].
  apply bind_inv' in E as (n & -> & E). rewrite bind_Ok. apply bind_inv' in E as (c & -> & E). rewrite bind_Ok. cbn zeta in *.
  apply bind_inv' in E as (nd & En & E). rewrite (get_node_le _ _ En), bind_Ok. destruct nd; [exact E| |].
  - apply bind_inv' in E as (x' & -> & E). rewrite bind_Ok. by apply IH.
  - apply bind_inv' in E as (z & Ez & E). rewrite (get_value_le _ _ _ Ez), bind_Ok. exact E.
Qed.
Lemma iter_next_le it y : iter_next rd it = Ok y -> iter_next rd' it = Ok y.
Proof.
  unfold iter_next. destruct (it_done it); [done|]. destruct (it_stack it); [|apply iter_next_loop_le].
  intros E. apply bind_inv' in E as (nd & En & E). rewrite (get_node_le _ _ En), bind_Ok. destruct nd; [exact E|exact E|].
  apply bind_inv' in E as (z & Ez & E). rewrite (get_value_le _ _ _ Ez), bind_Ok. exact E.
Qed.
End mono.

(** *** Partial views *)
Section partial.
Context (H : list byte -> bytes32).
(** the node keys of version [v], whose tree has the map [M] and the node versions [ver] *)
Definition needs (ver : list nibble -> version) (M : gmap key vhash) (v : version) (nk : nodekey) : Prop :=
  nk = (v, []) \/ (nk.2 <> [] /\ nk.1 = ver nk.2 /\ 2 <= size (U (parent nk.2) M) /\ U nk.2 M <> ∅).
Local Instance needs_dec ver M v nk : Decision (needs ver M v nk).
Proof. unfold needs. apply _. Defined.
(** the reader lacks some nodes of the version, but has no others in their place *)
Definition pview (ver : list nibble -> version) (rd : reader) (v : version) (m : gmap key value) : Prop :=
  (forall nk nd, needs ver (H <$> m) v nk -> rd_node rd nk = Some nd -> nd = node_at H (H <$> m) ver nk.2) /\
  (forall p n k x, 2 <= size (U p m) -> U (p ++ [n]) m = {[ k := x ]} -> rd_value rd (ver (p ++ [n])) k = Some x) /\
  (forall k, rd_value rd v k = m !! k).
Definition filled (ver : list nibble -> version) (rd : reader) (v : version) (m : gmap key value) : reader :=
  mkReader (fun nk => if decide (needs ver (H <$> m) v nk) then Some (node_at H (H <$> m) ver nk.2) else rd_node rd nk) (rd_value rd) (rd_rightmost rd).
Lemma filled_view ver rd v m : pview ver rd v m -> vview H ver (filled ver rd v m) v m.
Proof.
  intros (Hn & Hv & Hk). split; [|by split]. split.
  - cbn. by rewrite decide_True by (by left).
  - intros p Hp n Ne. cbn [filled rd_node]. rewrite decide_True; [done|]. right. cbn [fst snd]. rewrite parent_snoc. split_and!; [by destruct p|done..].
Qed.
Lemma filled_le ver rd v m : pview ver rd v m -> forall nk nd, rd_node rd nk = Some nd -> rd_node (filled ver rd v m) nk = Some nd.
Proof. intros (Hn & _) nk nd E. cbn. case_decide as D; [|done]. by rewrite (Hn nk nd D E). Qed.

Lemma excl_present r v m k x : reader_reads_as H r v m -> m !! k = Some x -> exists p, get_with_exclusion_proof H r k v = Ok (inl (x, p)) /\ verify H p (smt_root H m) k (Some x) = Ok tt.
Proof. intros (_ & _ & _ & _ & _ & _ & _ & K & _) E. by apply K. Qed.
Lemma excl_empty ver r v k : vview H ver r v ∅ -> forall y, get_with_exclusion_proof H r k v <> Ok y.
Proof.
  intros V y. pose proof V as ([Rt _] & _). unfold get_with_exclusion_proof. destruct (view_reader H r v ∅) as (_ & P & _); [by exists ver|].
  destruct (P k) as (p & -> & _). rewrite bind_Ok, lookup_empty. cbn beta iota. unfold get_bounding_path, search_for_closest_node. 
  assert (E : exists e, search_loop r k v (key_nibbles k) [] (nk_root v) [] = Err e).
  { eexists. unfold nk_root. rewrite fmap_empty in Rt. rewrite node_at_null in Rt by (rewrite U_nil; done).
    destruct (key_nibbles k); cbn [search_loop]; rewrite Rt; cbn [ok_or]; by rewrite bind_Ok. }
  destruct E as [e ->]. done.
Qed.
Lemma pview_true ver rd v m : pview ver rd v m -> answers_truly H rd v m.
Proof.
  intros V. pose proof (filled_view _ _ _ _ V) as W. pose proof (filled_le _ _ _ _ V) as Le. set (rd' := filled ver rd v m) in *.
  assert (Lv : forall w k x, rd_value rd w k = Some x -> rd_value rd' w k = Some x) by done.
  pose proof (view_reader H rd' v m (ex_intro _ ver W)) as Rd. pose proof Rd as (R1 & R2 & R3 & R4 & R5 & R6 & R7 & R8 & _).
  split_and!.
  - intros k y [= <-]. apply V.
  - intros k y p E. apply (gwp_le H rd rd' Le Lv) in E. destruct (R2 k) as (p' & E' & Vf). rewrite E in E'. injection E' as -> ->. done.
  - intros h E. apply (root_hash_le H rd rd' Le) in E. rewrite R3 in E. by injection E.
  - intros h E. apply (root_hash_option_le H rd rd' Le) in E. rewrite R4 in E. by injection E.
  - intros h E. apply (leaf_count_le rd rd' Le) in E. rewrite R5 in E. by injection E.
  - intros ovf k p E. apply (range_le H rd rd' Le Lv) in E. destruct (m !! k) as [x|] eqn:Ek.
    + destruct (R6 ovf k x Ek) as (p' & n & E' & Q). rewrite E in E'. injection E' as ->. by exists x, n.
    + exfalso. unfold get_range_proof in E. destruct (R2 k) as (p' & E' & _). rewrite E', bind_Ok, Ek in E. done.
  - intros k e E. apply (excl_le H rd rd' Le Lv) in E. destruct (m !! k) as [x|] eqn:Ek.
    { destruct (excl_present rd' v m k x Rd Ek) as (p & E' & _). rewrite E in E'. done. }
    destruct (decide (m = ∅)) as [->|Ne]; [by apply (excl_empty ver rd' v k W) in E|]. destruct (R7 k Ek Ne) as (e' & E' & Q). rewrite E in E'. injection E' as ->. done.
  - intros k x p E. apply (excl_le H rd rd' Le Lv) in E. destruct (m !! k) as [x'|] eqn:Ek.
    + destruct (R8 k x' Ek) as (p' & E' & Q). rewrite E in E'. injection E' as -> ->. done.
    + exfalso. destruct (decide (m = ∅)) as [->|Ne]; [by apply (excl_empty ver rd' v k W) in E|]. destruct (R7 k Ek Ne) as (e' & E' & Q). rewrite E in E'. done.
Qed.
Lemma rest_truly (P : reader -> Prop) ver v m : (forall rd, P rd -> pview ver rd v m) -> forall l it, it_rest H m ver v it l -> yields_truly P it l.
Proof.
  intros HP. induction l as [|kx l IH]; intros it Rt; cbn; intros rd y it' Prd E; pose proof (HP rd Prd) as V; destruct (filled_view _ _ _ _ V) as (St & Hv & Hk);
    apply (iter_next_le rd (filled ver rd v m) (filled_le _ _ _ _ V) (fun _ _ _ E => E)) in E;
    assert (Hv0 : forall k x, m = {[ k := x ]} -> rd_value (filled ver rd v m) v k = Some x) by (intros k x F; rewrite Hk, F; apply lookup_singleton);
    pose proof (iter_next_ok H m ver _ v St Hv Hv0 it _ Rt) as F; cbn in F.
  - rewrite E in F. by injection F as -> ->.
  - destruct F as (it2 & F & R'). rewrite E in F. injection F as -> ->. split; [done|]. by apply IH.
Qed.
End partial.

(** *** Stores *)
Section stores.
Context (H : list byte -> bytes32).
Lemma needs_in x nk : needs (a_ver (vs_a x)) (a_map (vs_a x)) (vs_v x) nk -> node_in x nk.
Proof.
  intros [->|(A & B & C & D)]; [by left|]. right. split; [done|]. split; [|done]. split; [apply prefix_nil|]. split; [done|by right].
Qed.
Lemma run_pview ops st xs v : run H ops = Ok (st, xs) -> (v < num_versions ops)%N -> exists x, (xrun H tb0 ops).1 !! N.to_nat v = Some x /\
  (forall nk, needs (a_ver (vs_a x)) (H <$> contents_at (history ops) v) v nk -> (nk.1 < num_versions ops)%N) /\
  pview H (a_ver (vs_a x)) (store_reader st) v (contents_at (history ops) v).
Proof.
  intros R L2. set (m := contents_at (history ops) v). apply run_inv in R as [_ S]. pose proof (si_len _ _ _ _ _ _ S) as Len. pose proof (si_trok _ _ _ _ _ _ S) as T.
  destruct (lookup_lt_is_Some_2 (xrun H tb0 ops).1 (N.to_nat v)) as [x E]; [unfold num_versions in L2; lia|]. exists x. split; [done|].
  pose proof T as (T1 & _ & _ & _ & T5 & _).
  assert (Vx : vs_v x = v) by (rewrite (T1 _ _ E); lia).
  assert (Mx : a_map (vs_a x) = H <$> m) by (rewrite (si_map _ _ _ _ _ _ S _ _ E), N2Nat.id; done).
  assert (Ix : x ∈ (xrun H tb0 ops).1) by (by eapply elem_of_list_lookup_2).
  assert (NI : forall nk, needs (a_ver (vs_a x)) (H <$> m) v nk -> exists z, z ∈ (xrun H tb0 ops).1 /\ nodes_of H z nk (node_at H (H <$> m) (a_ver (vs_a x)) nk.2)).
  { intros nk N. rewrite <- Mx, <- Vx in N. apply needs_in, (T5 _ _ Ix) in N. unfold node_val in N. rewrite Mx in N. exact N. }
  split; [|split; [|split]].
  - intros nk N. apply NI in N as (z & Iz & [-> _]). unfold num_versions. rewrite <- Len. by apply (tr_lt H).
  - intros nk nd N En. apply NI in N as (z & Iz & Nz). apply (si_nodes _ _ _ _ _ _ S) in En as [(y & Iy & Ny) _].
    destruct Nz as (Z1 & Z2 & _), Ny as (Y1 & Y2 & _). assert (y = z) as -> by (eapply (tr_inj H); [exact T|done|done|congruence]). congruence.
  - intros p n k y Mn EU. rewrite (value_ok H _ _ _ _ _ _ _ S).
    rewrite (run_leaf_value H ops x (N.to_nat v) k (p ++ [n]) (H y)); [..|done| | |].
    + rewrite N2Nat.id. fold m. assert (X : U (p ++ [n]) m !! k = Some y) by (rewrite EU; apply lookup_singleton). by apply U_lookup in X as [X _].
    + destruct p; discriminate.
    + rewrite parent_snoc, Mx, U_fm_size. done.
    + rewrite Mx, U_fm. fold m. rewrite EU. apply map_fmap_singleton.
  - intros k. by eapply value_ok.
Qed.
(** what a partly written batch, and a partial purge, show of the versions already there *)
Lemma commit_adds_new ops st xs o x b st1 s' : run H ops = Ok (st, xs) -> step H st (num_versions ops) o = Ok (st1, x) -> out_batch x = Some b -> partly_written b st s' ->
  forall nk nd, st_nodes s' !! nk = Some nd -> (nk.1 < num_versions ops)%N -> st_nodes st !! nk = Some nd.
Proof.
  intros R E Eb P. apply run_inv in R as [_ S]. set (tb := xrun H tb0 ops) in *.
  destruct (step_ok H st tb (history ops) (Driver.floor ops) o S) as (st1' & x' & E' & O & _). fold (num_versions ops) in E'. rewrite E in E'. injection E' as <- <-.
  assert (BO : batch_ok H (trn H tb.1 tb.2 (op_sets o)) (num_versions ops) (op_sets o) b).
  { destruct o as [sets|sets|l], x as [r b'|r b'|]; try done; injection Eb as ->; cbn in O.
    - apply O. - by destruct O as (pfss & _ & _ & O). }
  assert (Nb : forall nk nd, tb_nodes b !! nk = Some nd -> (num_versions ops <= nk.1)%N).
  { intros nk nd En. apply (bo_nodes _ _ _ _ _ BO) in En as (y & (i & Iy)%elem_of_list_lookup & [-> _]). 
    destruct (trn_maps H st tb.1 tb.2 (history ops) (Driver.floor ops) (op_sets o) S i y Iy) as [-> _]. unfold num_versions. rewrite <- (si_len _ _ _ _ _ _ S). lia. }
  clear -P Nb. induction P as [|s' nk nd P IH E|s' w k y h P IH E Ph|s' log P IH E]; [done| |exact IH|exact IH].
  cbn. intros nk' nd' E' L. rewrite lookup_insert_ne in E'; [by apply IH|]. intros ->. apply Nb in E. lia.
Qed.
Lemma purge_only_removes l st s' : partly_purged l st s' -> (forall nk nd, st_nodes s' !! nk = Some nd -> st_nodes st !! nk = Some nd) /\ st_history s' = st_history st.
Proof.
  induction 1 as [|s' log P [I1 I2] E L|s' log P [I1 I2] E L]; [done| |done]. split; [|done]. cbn. intros nk nd [_ F]%lookup_delete_Some. by apply I1.
Qed.
End stores.
Section theorems.
Context (H : list byte -> bytes32).
Lemma any_pview ops st xs v : run H ops = Ok (st, xs) -> (v < num_versions ops)%N -> exists x, (xrun H tb0 ops).1 !! N.to_nat v = Some x /\ forall s, passes_any H ops s ->
  pview H (a_ver (vs_a x)) (store_reader s) v (contents_at (history ops) v).
Proof.
  intros R Lv. destruct (run_pview H ops st xs v R Lv) as (x & Ex & _). exists x. split; [done|].
  assert (G : forall more st' xs', run H (ops ++ more) = Ok (st', xs') -> (v < num_versions (ops ++ more))%N /\
    (forall nk, needs (a_ver (vs_a x)) (H <$> contents_at (history ops) v) v nk -> (nk.1 < num_versions (ops ++ more))%N) /\
    pview H (a_ver (vs_a x)) (store_reader st') v (contents_at (history ops) v)).
  { intros more st' xs' R'. assert (Lv' : (v < num_versions (ops ++ more))%N) by (unfold num_versions in *; rewrite history_app, app_length; lia). split; [done|].
    destruct (run_pview H _ _ _ _ R' Lv') as (x' & Ex' & B & V).
    rewrite history_more in B, V by done. rewrite xrun_app in Ex'. destruct (xrun_prefix H more (xrun H tb0 ops)) as [l El]. rewrite El in Ex'.
    rewrite lookup_app_l in Ex' by (by eapply lookup_lt_Some). rewrite Ex in Ex'. injection Ex' as <-. done. }
  intros s [more st' xs' R'|more st' xs' o y b st1 s' R' E Eb P|more st' xs' l s' R' P]; destruct (G _ _ _ R') as (Lv' & B & V).
  - done.
  - pose proof (commit_adds_new H _ _ _ _ _ _ _ _ R' E Eb P) as I1. destruct (commit_keeps H _ _ _ _ _ _ _ _ R' E Eb P) as [_ I2].
    destruct V as (V1 & V2 & V3). split; [|split].
    + intros nk nd N En. apply (V1 nk nd N). apply I1; [exact En|by apply B].
    + intros p n k z Mn EU. cbn. rewrite I2; [by apply (V2 p n k z)|]. apply (B (a_ver (vs_a x) (p ++ [n]), p ++ [n])). right. cbn [fst snd]. rewrite parent_snoc, U_fm_size.
      split_and!; [by destruct p|done|done|]. rewrite U_fm, EU, map_fmap_singleton. apply insert_non_empty.
    + intros k. cbn. rewrite I2 by done. apply V3.
  - apply purge_only_removes in P as [I1 I2]. destruct V as (V1 & V2 & V3). unfold pview in *. cbn in *. unfold store_value in *. rewrite I2. split; [|done].
    intros nk nd N En. apply (V1 nk nd N). by apply I1.
Qed.
Lemma concurrent_pview ops st xs v : run H ops = Ok (st, xs) -> (v < num_versions ops)%N -> exists ver, forall rd, concurrent_any H ops rd ->
  pview H ver rd v (contents_at (history ops) v).
Proof.
  intros R Lv. destruct (any_pview ops st xs v R Lv) as (xv & _ & V). exists (a_ver (vs_a xv)). set (ver := a_ver (vs_a xv)) in *. intros rd [Cn Cv]. split; [|split].
  - intros nk nd N E. destruct (Cn nk) as (s & Ps & Es). rewrite Es in E. destruct (V s Ps) as (K & _). by apply (K nk nd N).
  - intros p n k x Mn E. destruct (Cv (ver (p ++ [n])) k) as (s & Ps & ->). destruct (V s Ps) as (_ & K & _). by eapply K.
  - intros k. destruct (Cv v k) as (s & Ps & ->). destruct (V s Ps) as (_ & _ & K). apply K.
Qed.
(** Any version ever committed, readable or not, whatever goes on in the store. *)
Theorem C64_answers_truly (ops : list op) st xs (v : version) (rd : reader) : run H ops = Ok (st, xs) -> (v < num_versions ops)%N ->
  concurrent_any H ops rd -> answers_truly H rd v (contents_at (history ops) v).
Proof. intros R Lv C. destruct (concurrent_pview ops st xs v R Lv) as (ver & V). apply (pview_true H ver). by apply V. Qed.
(** In particular once everything has come to rest. *)
Corollary C64_purged_answers_truly (ops : list op) st xs (v : version) : run H ops = Ok (st, xs) -> (v < num_versions ops)%N ->
  answers_truly H (store_reader st) v (contents_at (history ops) v).
Proof.
  intros R Lv. apply (C64_answers_truly ops st xs v); [done..|]. assert (P : passes_any H ops st) by (apply (any_between H ops [] st xs); by rewrite app_nil_r).
  split; intros; by exists st.
Qed.
(** An iterator begun on any such version gives the entries of the version in order, then ends, unless it fails. *)
Theorem C64_iterates_truly (ops : list op) st xs (v : version) (rd : reader) (start : key) it : run H ops = Ok (st, xs) -> (v < num_versions ops)%N ->
  concurrent_any H ops rd -> iter_new rd v start = Ok it -> yields_truly (concurrent_any H ops) it (entries_from start (contents_at (history ops) v)).
Proof.
  intros R Lv C E. destruct (concurrent_pview ops st xs v R Lv) as (ver & V). set (m := contents_at (history ops) v) in *. pose proof (V rd C) as W.
  apply (rest_truly H _ ver v m); [done|]. apply (iter_new_le rd (filled H ver rd v m) (filled_le H _ _ _ _ W)) in E.
  destruct (filled_view H _ _ _ _ W) as (St & _). destruct (iter_new_ok H m ver _ v St start) as (it' & E' & Rt). rewrite E in E'. injection E' as ->. exact Rt.
Qed.
Theorem C64_iterates_truly_by_index (ops : list op) st xs (v : version) (rd : reader) (i : nat) it : run H ops = Ok (st, xs) -> (v < num_versions ops)%N ->
  concurrent_any H ops rd -> iter_new_by_index rd v i = Ok it -> yields_truly (concurrent_any H ops) it (drop i (entries (contents_at (history ops) v))).
Proof.
  intros R Lv C E. destruct (concurrent_pview ops st xs v R Lv) as (ver & V). set (m := contents_at (history ops) v) in *. pose proof (V rd C) as W.
  apply (rest_truly H _ ver v m); [done|]. apply (iter_new_by_index_le rd (filled H ver rd v m) (filled_le H _ _ _ _ W)) in E.
  destruct (filled_view H _ _ _ _ W) as (St & _). destruct (iter_new_by_index_ok H m ver _ v St i) as (it' & E' & Rt). rewrite E in E'. injection E' as ->. exact Rt.
Qed.
End theorems.

(** *** The failure is not always an error: FALSE that a query about a purged version never panics.
    Version 1 changes nothing, so its root is a copy of version 0's that is never marked stale; version 2 replaces one
    of its two leaves, and the purge up to version 2 removes it.  A proof for the other key at version 1 panics: the
    missing sibling is unwrapped (node_type.rs:535). *)
Definition purged_ops : list op := [Commit [[(K00, Some va); (K80, Some vb)]; []; [(K80, Some va)]]; Purge 2].
Theorem C64_purged_panics_refuted (H : list byte -> bytes32) : exists st xs, run H purged_ops = Ok (st, xs) /\
  num_versions purged_ops = 3%N /\ get_with_proof H (store_reader st) K00 1 = Panic.
Proof.
  assert (E : match run H purged_ops with Ok (st, _) => match get_with_proof H (store_reader st) K00 1 with Panic => true | _ => false end | _ => false end = true) by (vm_compute; reflexivity).
  destruct (run H purged_ops) as [[st xs]| |]; [|discriminate..]. exists st, xs. split; [done|]. split; [vm_compute; reflexivity|].
  destruct (get_with_proof H (store_reader st) K00 1) as [? | |]; [discriminate..|done].
Qed.
(** The hypotheses are met by such a version, and it still gives true answers where it can: its root is there. *)
Example purged_demo (H : list byte -> bytes32) st xs : run H purged_ops = Ok (st, xs) ->
  ~ readable purged_ops 1 /\ answers_truly H (store_reader st) 1 {[ K00 := va; K80 := vb ]} /\
  get_root_hash H (store_reader st) 1 = Ok (smt_root H {[ K00 := va; K80 := vb ]}).
Proof.
  intros R. split; [intros [L _]; vm_compute in L; congruence|].
  assert (A : answers_truly H (store_reader st) 1 {[ K00 := va; K80 := vb ]}).
  { assert (Em : contents_at (history purged_ops) 1 = {[ K00 := va; K80 := vb ]}) by (apply (bool_decide_eq_true_1 _); vm_compute; reflexivity). rewrite <- Em.
    apply (C64_purged_answers_truly H purged_ops st xs 1 R). vm_compute. reflexivity. }
  split; [exact A|]. destruct A as (_ & _ & A & _). 
  assert (E : match run H purged_ops with Ok (st, _) => match get_root_hash H (store_reader st) 1 with Ok _ => true | _ => false end | _ => false end = true) by (vm_compute; reflexivity).
  rewrite R in E. destruct (get_root_hash H (store_reader st) 1) as [h| |] eqn:Eh; [|discriminate..]. rewrite (A h eq_refl). reflexivity.
Qed.
