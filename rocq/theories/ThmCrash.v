(** C60: a crash while an update batch is being written, or while stale nodes are being purged, at any point and with the
    single writes done in any order.  Whatever was written, every version that was readable stays readable and unchanged. *)
From Verif Require Import Base Spec SpecOrder SpecRange NodeType ProofDef TreeCache Tree Mock Driver Iterator Exclusion KeyFacts SmtFacts ProofFacts NodeFacts Canon CanonSib ReadFacts PutFacts InsertFacts PutTop VersionFacts ValueFacts StoreFacts DriverFacts DriverFacts2 LeafVersion KeyOrder OrderFacts IterFacts ExclFacts ThmProof ThmStore ThmRange ThmIter ThmExcl Demo Toy.
From Coq Require Import Lia.
Local Opaque Spec.smt.

(** The single writes that make up mock.rs:99-117 write_node_batch and mock.rs:176-190 put_stale_node_index for the batch
    [b], done in any order; [partly_written b s s']: some of them are done, starting from [s]. *)
Inductive partly_written (b : tree_batch) (s : store) : store -> Prop :=
| pw_none : partly_written b s s
| pw_node s' nk nd : partly_written b s s' -> tb_nodes b !! nk = Some nd ->
    partly_written b s (mkStore (<[ nk := nd ]> (st_nodes s')) (st_stale s') (st_history s') (st_overwrite s'))
| pw_value s' w k x h : partly_written b s s' -> tb_values b !! (w, k) = Some x -> put_value_hist (st_history s') w k x = Ok h ->
    partly_written b s (mkStore (st_nodes s') (st_stale s') h (st_overwrite s'))
| pw_stale s' log : partly_written b s s' -> log ∈ tb_stale b ->
    partly_written b s (mkStore (st_nodes s') ({[ log ]} ∪ st_stale s') (st_history s') (st_overwrite s')).
(** The single steps of mock.rs:192-211 purge_stale_nodes up to version [l], in any order, the removal of a node and of
    its index entry being separate writes. *)
Inductive partly_purged (l : version) (s : store) : store -> Prop :=
| pp_none : partly_purged l s s
| pp_node s' log : partly_purged l s s' -> log ∈ st_stale s -> (log.1 <= l)%N ->
    partly_purged l s (mkStore (delete log.2 (st_nodes s')) (st_stale s') (st_history s') (st_overwrite s'))
| pp_index s' log : partly_purged l s s' -> log ∈ st_stale s -> (log.1 <= l)%N ->
    partly_purged l s (mkStore (st_nodes s') (st_stale s' ∖ {[ log ]}) (st_history s') (st_overwrite s')).

(** What a client reads of version [v] through the reader [r] is the map [m]: values, proofs that verify, root, leaf
    count, range proofs that verify, exclusion proofs naming the true neighbours, iteration by key and by index. *)
Definition reader_reads_as (H : list byte -> bytes32) (r : reader) (v : version) (m : gmap key value) : Prop :=
  (forall k, get r k v = Ok (m !! k)) /\
  (forall k, exists p, get_with_proof H r k v = Ok (m !! k, p) /\ verify H p (smt_root H m) k (m !! k) = Ok tt) /\
  get_root_hash H r v = Ok (smt_root H m) /\
  get_root_hash_option H r v = Ok (Some (smt_root H m)) /\
  get_leaf_count r v = Ok (size m) /\
  (forall ovf k x, m !! k = Some x -> exists p n, get_range_proof H r k v = Ok p /\ path_ends m k n /\
    range_verify H ovf p (smt_root H m) (LeafNode k (H x)) (left_hashes H m k n) = Ok tt) /\
  (forall k, m !! k = None -> m <> ∅ -> exists e, get_with_exclusion_proof H r k v = Ok (inr e) /\ names_neighbours H m k e) /\
  (forall k x, m !! k = Some x -> exists p, get_with_exclusion_proof H r k v = Ok (inl (x, p)) /\ verify H p (smt_root H m) k (Some x) = Ok tt) /\
  (forall start, exists it, iter_new r v start = Ok it /\ yields r it (entries_from start m)) /\
  (forall i, exists it, iter_new_by_index r v i = Ok it /\ yields r it (drop i (entries m))).
Definition reads_as (H : list byte -> bytes32) (s : store) (v : version) (m : gmap key value) : Prop := reader_reads_as H (store_reader s) v m.

Section crash.
Context (H : list byte -> bytes32).
Lemma hproof_verifies (m : gmap key value) k n : term (H <$> m) k n -> verify H (hproof H (H <$> m) k n) (smt_root H m) k (m !! k) = Ok tt.
Proof. intros T. rewrite <- ms_nil. apply verify_complete; [done|]. by rewrite lookup_fmap. Qed.

(** the facts about a reader that fix all its reads at [v] *)
Definition vview (ver : list nibble -> version) (rd : reader) (v : version) (m : gmap key value) : Prop := stored H rd (H <$> m) ver v /\
  (forall p n k x, 2 <= size (U p m) -> U (p ++ [n]) m = {[ k := x ]} -> rd_value rd (ver (p ++ [n])) k = Some x) /\
  (forall k, rd_value rd v k = m !! k).
Definition view (rd : reader) (v : version) (m : gmap key value) : Prop := exists ver, vview ver rd v m.
Lemma view_reader r v m : view r v m -> reader_reads_as H r v m.
Proof.
  intros (ver & St & Hv & Hk).
  assert (Hv0 : forall k x, m = {[ k := x ]} -> rd_value r v k = Some x) by (intros k x ->; rewrite Hk; apply lookup_singleton).
  assert (P : forall k, exists p, get_with_proof H r k v = Ok (m !! k, p) /\ verify H p (smt_root H m) k (m !! k) = Ok tt).
  { intros k. destruct (get_with_proof_canon H r m ver k v St Hk) as (n & T & E). eexists. split; [exact E|]. by apply hproof_verifies. }
  destruct (get_root_hash_canon H _ _ _ _ St) as [R1 R2]. rewrite ms_nil in R1, R2.
  unfold reader_reads_as. split_and!.
  - intros k. unfold get. by rewrite Hk.
  - exact P.
  - exact R1.
  - exact R2.
  - by rewrite (get_leaf_count_canon H _ _ _ _ St), map_size_fmap.
  - intros ovf k x Ex. destruct (get_with_proof_canon H r m ver k v St Hk) as (n & T & E). destruct (range_from_proof H ovf r m v k x n Ex T E) as (p & Q). exists p, n. exact Q.
  - intros k Nk Ne. unfold get_with_exclusion_proof. destruct (P k) as (p & -> & _). rewrite Nk, bind_Ok. cbn beta iota.
    assert (Sh : forall k', is_Some (m !! k') -> exists x p, get_with_proof H r k' v = Ok (Some x, p) /\ shows H m k' p).
    { intros k' [x Ex]. destruct (P k') as (p' & E & V). rewrite Ex in E, V. exists x, p'. split; [done|]. exists x. split; [done|exact V]. }
    destruct (bounding_ok H (H <$> m) ver r v St k) as (l & rr & -> & Nl & Nr); [by rewrite lookup_fmap, Nk|intros Z; by apply fmap_empty_inv in Z|].
    rewrite bind_Ok. cbn beta iota.
    assert (E : forall j, is_Some ((H <$> m) !! j) <-> is_Some (m !! j)) by (intros; rewrite lookup_fmap; apply fmap_is_Some).
    destruct l as [kl|], rr as [kr|].
    + apply nearest_pred in Nl. apply nearest_succ in Nr.
      destruct (Sh kl (proj1 Nl)) as (xl & pl & -> & Sl). rewrite bind_Ok. cbn beta iota.
      destruct (Sh kr (proj1 Nr)) as (xr & pr & -> & Sr). rewrite bind_Ok. cbn beta iota.
      eexists. split; [done|]. split; eauto.
    + apply nearest_pred in Nl. destruct (Sh kl (proj1 Nl)) as (xl & pl & -> & Sl). rewrite bind_Ok. cbn beta iota.
      eexists. split; [done|]. split; [|eauto]. intros j Ij L. by apply (Nr j); [apply E|].
    + apply nearest_succ in Nr. destruct (Sh kr (proj1 Nr)) as (xr & pr & -> & Sr). rewrite bind_Ok. cbn beta iota.
      eexists. split; [done|]. split; [|eauto]. intros j Ij L. by apply (Nl j); [apply E|].
    + exfalso. apply Ne. apply map_empty. intros j. destruct (m !! j) as [y|] eqn:Ej; [|done]. exfalso.
      destruct (key_lt_total j k) as [L|[->|L]]; [|congruence|]; [apply (Nl j)|apply (Nr j)]; rewrite ?E; eauto.
  - intros k x Ex. unfold get_with_exclusion_proof. destruct (P k) as (p & -> & V). rewrite Ex in *. rewrite bind_Ok. cbn beta iota. eauto.
  - intros start. destruct (iter_new_ok H m ver r v St start) as (it & E & Rt). exists it. split; [done|]. eapply yields_rest; [done|done|done|exact Rt].
  - intros i. destruct (iter_new_by_index_ok H m ver r v St i) as (it & E & Rt). exists it. split; [done|]. eapply yields_rest; [done|done|done|exact Rt].
Qed.
Lemma view_reads s v m : view (store_reader s) v m -> reads_as H s v m.
Proof. apply view_reader. Qed.
Lemma run_view ops st xs v : run H ops = Ok (st, xs) -> readable ops v -> view (store_reader st) v (contents_at (history ops) v).
Proof.
  intros R Rv. destruct (read_iter H ops st xs v R Rv) as (ver & St & Hv & Hv0). exists ver. split; [done|]. split; [done|].
  intros k. apply run_inv in R as [_ S]. by eapply value_ok.
Qed.
(** A view survives additional nodes, and additional values of versions from [n] on. *)
Lemma vview_mono ver rd rd' v m n : vview ver rd v m -> (v < n)%N -> (forall nk nd, rd_node rd nk = Some nd -> rd_node rd' nk = Some nd /\ (nk.1 < n)%N) ->
  (forall w k, (w < n)%N -> rd_value rd' w k = rd_value rd w k) -> vview ver rd' v m.
Proof.
  intros ([R K] & Hv & Hk) L Hn Hw. split; [|split].
  - split; [by apply Hn|]. intros p Hp i Ne. apply Hn. by apply K.
  - intros p i k x Mn E. rewrite Hw; [by apply Hv|]. assert (Mn' : 2 <= size (U p (H <$> m))) by (by rewrite U_fm_size).
    specialize (K p Mn' i). apply Hn in K; [by destruct K|]. rewrite U_fm, E, map_fmap_singleton. apply insert_non_empty.
  - intros k. by rewrite Hw.
Qed.
Lemma view_mono rd rd' v m n : view rd v m -> (v < n)%N -> (forall nk nd, rd_node rd nk = Some nd -> rd_node rd' nk = Some nd /\ (nk.1 < n)%N) ->
  (forall w k, (w < n)%N -> rd_value rd' w k = rd_value rd w k) -> view rd' v m.
Proof. intros (ver & V) L Hn Hw. exists ver. by eapply vview_mono. Qed.
Lemma find_value_app max l v x : (max < v)%N -> find_value max (rev (l ++ [(v, x)])) = find_value max (rev l).
Proof. intros L. rewrite rev_app_distr. cbn [rev app find_value]. by destruct (N.leb_spec v max); [lia|]. Qed.
Lemma put_value_older s h w k x max j : put_value_hist (st_history s) w k x = Ok h -> (max < w)%N ->
  store_value (mkStore (st_nodes s) (st_stale s) h (st_overwrite s)) max j = store_value s max j.
Proof.
  unfold put_value_hist, store_value. cbn [st_history]. intros P L. destruct (st_history s !! k) as [l|] eqn:E.
  - destruct (rev l) as [|[lv y] r] eqn:Er.
    + injection P as <-. destruct (decide (j = k)) as [->|N]; [rewrite lookup_insert, E, find_value_app by done|by rewrite lookup_insert_ne by done]. done.
    + assert (El : l = rev r ++ [(lv, y)]) by (rewrite <- (rev_involutive l), Er; done).
      destruct (N.compare_spec w lv) as [Ew|Ew|Ew]; [|done|]; injection P as <-; (destruct (decide (j = k)) as [->|N]; [rewrite lookup_insert, E|by rewrite lookup_insert_ne by done]).
      * subst lv. rewrite find_value_app by done. rewrite El, find_value_app by done. done.
      * by rewrite find_value_app.
  - injection P as <-. destruct (decide (j = k)) as [->|N]; [rewrite lookup_insert, E|by rewrite lookup_insert_ne by done].
    cbn. by destruct (N.leb_spec w max); [lia|].
Qed.

(** what a partly written batch leaves alone *)
Lemma commit_keeps (ops : list op) st xs (o : op) (x : out) (b : tree_batch) st1 s' :
  run H ops = Ok (st, xs) -> step H st (num_versions ops) o = Ok (st1, x) -> out_batch x = Some b -> partly_written b st s' ->
  (forall nk nd, st_nodes st !! nk = Some nd -> st_nodes s' !! nk = Some nd /\ (nk.1 < num_versions ops)%N) /\
  (forall w k, (w < num_versions ops)%N -> store_value s' w k = store_value st w k).
Proof.
  intros R E Eb P. apply run_inv in R as [_ S]. set (tb := xrun H tb0 ops) in *.
  destruct (step_ok H st tb (history ops) (Driver.floor ops) o S) as (st1' & x' & E' & O & _). fold (num_versions ops) in E'. rewrite E in E'. injection E' as <- <-.
  assert (BO : batch_ok H (trn H tb.1 tb.2 (op_sets o)) (num_versions ops) (op_sets o) b).
  { destruct o as [sets|sets|l], x as [r b'|r b'|]; try done; injection Eb as ->; cbn in O.
    - apply O. - by destruct O as (pfss & _ & _ & O). }
  destruct (commit_batch H st tb.1 tb.2 (history ops) (Driver.floor ops) (op_sets o) S) as (T & _).
  destruct (commit_ok H st tb.1 tb.2 (history ops) (Driver.floor ops) (op_sets o) b S T BO) as (D & _).
  assert (Nl : forall nk nd, st_nodes st !! nk = Some nd -> (nk.1 < num_versions ops)%N).
  { intros nk nd En. apply (si_nodes _ _ _ _ _ _ S) in En as [(y & Hy & [-> _]) _]. unfold num_versions. rewrite <- (si_len _ _ _ _ _ _ S). apply (tr_lt H); [by eapply si_trok|done]. }
  assert (Vl : forall w k y, tb_values b !! (w, k) = Some y -> (num_versions ops <= w)%N).
  { intros w k y. rewrite (bo_values _ _ _ _ _ BO), bvals_lookup by (intros; apply lookup_empty). rewrite lookup_empty. intros [Hl|?]; [|done]. apply hl_lt in Hl; lia. }
  assert (Inv : (forall nk nd, st_nodes st !! nk = Some nd -> st_nodes s' !! nk = Some nd) /\
    (forall w k, (w < num_versions ops)%N -> store_value s' w k = store_value st w k)).
  { clear -P D Vl. induction P as [|s' nk nd P [I1 I2] E|s' w k y h P [I1 I2] E Ph|s' log P [I1 I2] E]; [done|..].
    - split; [|exact I2]. cbn. intros nk' nd' E'. rewrite lookup_insert_ne; [by apply I1|]. intros ->. eapply map_disjoint_spec; [exact D|exact E|exact E'].
    - split; [exact I1|]. intros w' k' L. rewrite (put_value_older s' h w k y) by (first [done|apply Vl in E; lia]). by apply I2.
    - split; [exact I1|exact I2]. }
  destruct Inv as [I1 I2]. split; [|exact I2]. intros nk nd En. split; [by apply I1|by eapply Nl].
Qed.
(** C60, first half: a batch of a new version or of several, written in part. *)
Theorem C60_crash_in_commit (ops : list op) st xs (o : op) (x : out) (b : tree_batch) st1 s' (v : version) :
  run H ops = Ok (st, xs) -> step H st (num_versions ops) o = Ok (st1, x) -> out_batch x = Some b ->
  partly_written b st s' -> readable ops v -> reads_as H s' v (contents_at (history ops) v).
Proof.
  intros R E Eb P Rv. apply view_reads. pose proof (run_view ops st xs v R Rv) as V. pose proof Rv as [_ Lv].
  destruct (commit_keeps _ _ _ _ _ _ _ _ R E Eb P) as [I1 I2].
  by eapply (view_mono (store_reader st) _ v _ (num_versions ops)).
Qed.
Lemma purge_loop_nodes l : forall s s', purge_loop s l = Ok s' -> st_history s' = st_history s /\
  forall nk nd, st_nodes s' !! nk = Some nd -> st_nodes s !! nk = Some nd /\ (forall log, log ∈ l -> log.2 <> nk).
Proof.
  induction l as [|log l IH]; intros s s' E; cbn [purge_loop] in E.
  - injection E as <-. split; [done|]. intros nk nd En. split; [done|]. intros log ?%elem_of_nil. done.
  - destruct (st_nodes s !! log.2) eqn:En; [|done]. cbn [ensure_] in E. rewrite bind_Ok in E. apply IH in E as [Eh E]. split; [done|].
    intros nk nd F. apply E in F as [F1 F2]. cbn in F1. apply lookup_delete_Some in F1 as [F1 F3]. split; [done|]. intros log' [->|Hl]%elem_of_cons; [done|by apply F2].
Qed.
(** what a partial purge leaves alone: all that the complete purge leaves *)
Lemma purge_keeps (ops : list op) st xs (l : version) s' : run H ops = Ok (st, xs) -> partly_purged l st s' ->
  exists st2 xs2, run H (ops ++ [Purge l]) = Ok (st2, xs2) /\
    (forall nk nd, st_nodes st2 !! nk = Some nd -> st_nodes s' !! nk = Some nd /\ (nk.1 < num_versions (ops ++ [Purge l]))%N) /\
    (forall w k, store_value s' w k = store_value st2 w k).
Proof.
  intros R P. pose proof R as R0. apply run_inv in R as [_ S].
  destruct (step_ok H st _ _ _ (Purge l) S) as (st2 & x & E & O & _). fold (num_versions ops) in E.
  pose proof (run_snoc H ops (Purge l) st xs st2 x R0 E) as R2. pose proof R2 as R3.
  apply run_inv in R2 as [_ S2]. cbn [step] in E. destruct (purge_stale_nodes st l) as [st2'| |] eqn:Ep; [|done..]. rewrite bind_Ok in E. injection E as <- _.
  apply purge_loop_nodes in Ep as [Eh Ep].
  assert (Inv : (forall nk nd, st_nodes st2' !! nk = Some nd -> st_nodes s' !! nk = Some nd) /\ st_history s' = st_history st).
  { clear -P Ep. induction P as [|s' log P [I1 I2] E L|s' log P [I1 I2] E L].
    - split; [|done]. intros nk nd E. by apply Ep in E as [? _].
    - split; [|done]. cbn. intros nk nd E'. rewrite lookup_delete_ne; [by apply I1|]. apply Ep in E' as [_ E']. apply E'. apply elem_of_elements, elem_of_filter. done.
    - done. }
  destruct Inv as [I1 I2]. exists st2', (xs ++ [x]). split; [exact R3|]. split.
  - intros nk nd En. split; [by apply I1|]. cbn in En. apply (si_nodes _ _ _ _ _ _ S2) in En as [(y & Hy & [-> _]) _].
    unfold num_versions. rewrite <- (si_len _ _ _ _ _ _ S2). apply (tr_lt H); [by eapply si_trok|done].
  - intros w k. unfold store_value. by rewrite I2, Eh.
Qed.
(** C60, second half: a purge up to [l] done in part; the versions that the purge is meant to keep stay readable. *)
Theorem C60_crash_in_purge (ops : list op) st xs (l : version) s' (v : version) :
  run H ops = Ok (st, xs) -> partly_purged l st s' -> readable (ops ++ [Purge l]) v ->
  reads_as H s' v (contents_at (history ops) v).
Proof.
  intros R P Rv. apply view_reads. destruct (purge_keeps ops st xs l s' R P) as (st2 & xs2 & R2 & I1 & I2).
  pose proof (run_view _ _ _ _ R2 Rv) as V. pose proof Rv as [_ Lv].
  rewrite history_app in V. cbn [history flat_map op_sets app] in V. rewrite app_nil_r in V.
  eapply (view_mono (store_reader st2) _ v _ (num_versions (ops ++ [Purge l]))); [done|done|exact I1|]. intros w k _. apply I2.
Qed.

(** The intermediate states are those of the modelled writers: a completed write is the last of them. *)
Lemma pw_trans b s1 s2 s3 : partly_written b s1 s2 -> partly_written b s2 s3 -> partly_written b s1 s3.
Proof. intros P Q. induction Q; [done|by econstructor..]. Qed.
Lemma pw_nodes (b : tree_batch) (N : gmap nodekey node) (s : store) : N ⊆ tb_nodes b -> partly_written b s (mkStore (N ∪ st_nodes s) (st_stale s) (st_history s) (st_overwrite s)).
Proof.
  revert s. induction N as [|nk nd N E IH] using map_ind; intros s Sub.
  - rewrite (left_id_L ∅ (∪)). destruct s. constructor.
  - rewrite <- insert_union_l. refine (pw_node b s (mkStore (N ∪ st_nodes s) (st_stale s) (st_history s) (st_overwrite s)) nk nd _ _).
    + apply IH. etrans; [|exact Sub]. by apply insert_subseteq.
    + eapply lookup_weaken; [apply lookup_insert|exact Sub].
Qed.
Lemma pw_values (b : tree_batch) l : forall s h, (forall w k x, ((w, k), x) ∈ l -> tb_values b !! (w, k) = Some x) -> write_values (st_history s) l = Ok h ->
  partly_written b s (mkStore (st_nodes s) (st_stale s) h (st_overwrite s)).
Proof.
  induction l as [|[[w k] x] l IH]; intros s h Hl E; cbn [write_values] in E.
  - injection E as <-. destruct s. constructor.
  - destruct (put_value_hist (st_history s) w k x) as [h1| |] eqn:E1; [|done..]. rewrite bind_Ok in E.
    eapply pw_trans; [eapply (pw_value b s s w k x h1); [constructor|apply Hl; by left|done]|].
    apply (IH (mkStore (st_nodes s) (st_stale s) h1 (st_overwrite s)) h); [|done]. intros w' k' x' Hw. apply Hl. by right.
Qed.
Lemma pw_stales (b : tree_batch) (S : gset (version * nodekey)) (s : store) : S ⊆ tb_stale b -> partly_written b s (mkStore (st_nodes s) (S ∪ st_stale s) (st_history s) (st_overwrite s)).
Proof.
  induction S as [|log S E IH] using set_ind_L; intros Sub.
  - rewrite (left_id_L ∅ (∪)). destruct s. constructor.
  - rewrite <- (assoc_L (∪)). refine (pw_stale b s (mkStore (st_nodes s) (S ∪ st_stale s) (st_history s) (st_overwrite s)) log _ _); [apply IH|]; set_solver.
Qed.
Theorem C60_complete_write_covered (s s' : store) (b : tree_batch) : write_tree_update_batch s b = Ok s' -> partly_written b s s'.
Proof.
  unfold write_tree_update_batch, write_node_batch. intros E. destruct (assert_ _); [|done..]. rewrite !bind_Ok in E.
  destruct (write_values (st_history s) (sorted_values (tb_values b))) as [h| |] eqn:Eh; [|done..]. rewrite !bind_Ok in E.
  destruct (ensure_ _ _); [|done..]. rewrite bind_Ok in E. injection E as <-. cbn [st_nodes st_stale st_history st_overwrite].
  eapply pw_trans; [apply (pw_nodes b (tb_nodes b)); done|].
  eapply pw_trans; [apply (pw_values b (sorted_values (tb_values b)) _ h); [|exact Eh]|].
  - intros w k x Hl. apply elem_of_map_to_list. unfold sorted_values in Hl. by rewrite merge_sort_Permutation in Hl.
  - apply (pw_stales b (tb_stale b)). done.
Qed.
Theorem C60_complete_purge_covered (s s' : store) (l : version) : purge_stale_nodes s l = Ok s' -> partly_purged l s s'.
Proof.
  unfold purge_stale_nodes. set (L := elements _). assert (HL : forall log, log ∈ L -> log ∈ st_stale s /\ (log.1 <= l)%N).
  { intros log. unfold L. rewrite elem_of_elements, elem_of_filter. tauto. }
  assert (P : partly_purged l s s) by constructor. revert P HL. generalize L. generalize s at 2 4. clear L. intros s0 L. revert s0.
  induction L as [|log L IH]; intros s0 P HL E; cbn [purge_loop] in E; [by injection E as <-|].
  destruct (st_nodes s0 !! log.2); [|done]. cbn [ensure_] in E. rewrite bind_Ok in E. eapply IH; [| |exact E].
  - destruct (HL log) as [A B]; [by left|]. refine (pp_index l s (mkStore (delete log.2 (st_nodes s0)) (st_stale s0) (st_history s0) (st_overwrite s0)) log _ _ _); [|done..].
    by apply pp_node.
  - intros log' Hl. apply HL. by right.
Qed.

(** The hypotheses are met: after any history, a commit of one version of which only the new root node is written; *)
Lemma crash_root ops st xs (set : value_set) : run H ops = Ok (st, xs) -> exists st1 roots b nd,
  step H st (num_versions ops) (Commit [set]) = Ok (st1, OutCommit roots b) /\ tb_nodes b !! (num_versions ops, []) = Some nd.
Proof.
  intros R. apply run_inv in R as [_ S]. destruct (step_ok H st _ _ _ (Commit [set]) S) as (st2 & x & E & O & S').
  fold (num_versions ops) in E. destruct x as [roots b|? ?|]; [|by exfalso..]. destruct O as [_ BO]. exists st2, roots, b.
  destruct (trn H (xrun H tb0 ops).1 (xrun H tb0 ops).2 [set]) as [|y l] eqn:Et;
    [pose proof (trn_length H (xrun H tb0 ops).1 (xrun H tb0 ops).2 [set]) as L; by rewrite Et in L|].
  assert (Ey : vs_v y = num_versions ops).
  { assert (Q : trn H (xrun H tb0 ops).1 (xrun H tb0 ops).2 [set] !! 0 = Some y) by (by rewrite Et). apply (trn_maps H _ _ _ _ _ _ S) in Q as [Q _].
    rewrite Q. unfold num_versions. lia. }
  exists (node_at H (a_map (vs_a y)) (a_ver (vs_a y)) []). split; [exact E|].
  apply (bo_nodes _ _ _ _ _ BO). exists y. split; [left|]. split; [symmetry; exact Ey|]. split; [reflexivity|by left].
Qed.
(** here on the demo history. *)
Example crash_demo st xs : run H demo = Ok (st, xs) -> exists st1 roots b nd, step H st 5 (Commit [[(K00, None)]]) = Ok (st1, OutCommit roots b) /\
  let s' := mkStore (<[ (5%N, []) := nd ]> (st_nodes st)) (st_stale st) (st_history st) (st_overwrite st) in
  partly_written b st s' /\ reads_as H s' 4 {[ K00 := vb; K80 := va; KC0 := vc ]}.
Proof.
  intros R. destruct (crash_root demo st xs [(K00, None)] R) as (st1 & roots & b & nd & E & En).
  replace (num_versions demo) with 5%N in * by reflexivity. exists st1, roots, b, nd. split; [exact E|].
  assert (P : partly_written b st (mkStore (<[ (5%N, []) := nd ]> (st_nodes st)) (st_stale st) (st_history st) (st_overwrite st))).
  { refine (pw_node b st st (5%N, []) nd _ En). constructor. }
  split; [exact P|]. rewrite <- (proj2 (proj2 (proj2 (proj2 demo_contents)))).
  refine (C60_crash_in_commit demo st xs (Commit [[(K00, None)]]) (OutCommit roots b) b st1 _ 4 R _ eq_refl P (proj1 (proj2 (proj2 demo_readable)))).
  replace (num_versions demo) with 5%N by reflexivity. exact E.
Qed.
End crash.

(** *** C61: redoing an interrupted commit (FALSE of the code) *)
(** The commit done again on a store that has leftovers, one that allows overwriting (mock.rs:149 new(true)). *)
Definition redo (H : list byte -> bytes32) (s : store) (sets : list value_set) (n : version) : outcome (store * list hash) :=
  '(roots, b) ← put_value_sets H (store_reader s) sets n;
  s' ← write_tree_update_batch (mkStore (st_nodes s) (st_stale s) (st_history s) true) b;
  Ok (s', roots).
(** All nodes of the batch are written, no value and no stale node index yet. *)
Definition nodes_written (s : store) (b : tree_batch) : store := mkStore (tb_nodes b ∪ st_nodes s) (st_stale s) (st_history s) (st_overwrite s).

Definition redo_check (H : list byte -> bytes32) (r0 : outcome (store * list out)) (sets : list value_set) (n : version) : bool :=
  match r0 with
  | Ok (st, _) =>
      match put_value_sets H (store_reader st) sets n with
      | Ok (_, b) =>
          match redo H (nodes_written st b) sets n with
          | Ok (s2, _) => match purge_stale_nodes s2 n with
                          | Ok s3 => match st_nodes s3 !! (n, []) with None => true | Some _ => false end
                          | _ => false end
          | _ => false end
      | _ => false end
  | _ => false end.
Lemma redo_ex H r0 sets n : redo_check H r0 sets n = true -> exists st xs roots b s2 r2 s3, r0 = Ok (st, xs) /\
  put_value_sets H (store_reader st) sets n = Ok (roots, b) /\ redo H (nodes_written st b) sets n = Ok (s2, r2) /\ purge_stale_nodes s2 n = Ok s3 /\
  st_nodes s3 !! (n, []) = None.
Proof.
  unfold redo_check. intros E. destruct r0 as [[st xs]| |]; [|done..]. destruct (put_value_sets H (store_reader st) sets n) as [[roots b]| |] eqn:E1; [|done..].
  destruct (redo H (nodes_written st b) sets n) as [[s2 r2]| |] eqn:E2; [|done..]. destruct (purge_stale_nodes s2 n) as [s3| |] eqn:E3; [|done..].
  destruct (st_nodes s3 !! (n, [])) eqn:E4; [done|]. exists st, xs, roots, b, s2, r2, s3. done.
Qed.
(** Redoing the SAME commit: the leftover root is taken for an old node and marked stale, and a purge removes the root of
    the latest version.  Writing a batch must be atomic. *)
Theorem C61_redo_same_refuted : exists H ops st xs sets roots b s1 s2 r2 s3, let n := num_versions ops in
  run H ops = Ok (st, xs) /\ put_value_sets H (store_reader st) sets n = Ok (roots, b) /\
  partly_written b st s1 /\ redo H s1 sets n = Ok (s2, r2) /\ purge_stale_nodes s2 n = Ok s3 /\
  readable (ops ++ [Commit sets; Purge n]) n /\ forall k, get_with_proof H (store_reader s3) k n = Err (EMissingRoot n).
Proof.
  set (ops := [Commit [[(K00, Some va)]]]). set (sets := [[(K00, None); (K80, None); (KC0, Some vc)]] : list value_set).
  destruct (redo_ex toy (run toy ops) sets 1) as (st & xs & roots & b & s2 & r2 & s3 & R & E1 & E2 & E3 & E4); [vm_compute; reflexivity|].
  exists toy, ops, st, xs, sets, roots, b, (nodes_written st b), s2, r2, s3. cbv zeta. replace (num_versions ops) with 1%N by reflexivity.
  split; [exact R|]. split; [exact E1|]. split; [apply pw_nodes; done|]. split; [exact E2|]. split; [exact E3|].
  split; [split; vm_compute; congruence|]. intros k. unfold get_with_proof. destruct (key_nibbles k); cbn [get_with_proof_loop store_reader rd_node nk_root]; unfold nk_root in *; rewrite E4; reflexivity.
Qed.

Definition redo_check2 (H : list byte -> bytes32) (r0 : outcome (store * list out)) (sets sets2 : list value_set) (n : version) (want : hash) : bool :=
  match r0 with
  | Ok (st, _) =>
      match put_value_sets H (store_reader st) sets n with
      | Ok (_, b) =>
          match put_value_sets H (store_reader (nodes_written st b)) sets2 n with
          | Ok (r2 :: _, _) => bool_decide (r2 <> want)
          | _ => false end
      | _ => false end
  | _ => false end.
Lemma redo_ex2 H r0 sets sets2 n want : redo_check2 H r0 sets sets2 n want = true -> exists st xs roots b r2 rs2 b2, r0 = Ok (st, xs) /\
  put_value_sets H (store_reader st) sets n = Ok (roots, b) /\ put_value_sets H (store_reader (nodes_written st b)) sets2 n = Ok (r2 :: rs2, b2) /\ r2 <> want.
Proof.
  unfold redo_check2. intros E. destruct r0 as [[st xs]| |]; [|done..]. destruct (put_value_sets H (store_reader st) sets n) as [[roots b]| |] eqn:E1; [|done..].
  destruct (put_value_sets H (store_reader (nodes_written st b)) sets2 n) as [[[|r2 rs2] b2]| |] eqn:E2; [done| |done..].
  apply bool_decide_eq_true in E. exists st, xs, roots, b, r2, rs2, b2. done.
Qed.
(** Committing ANOTHER set at that version over the leftovers: deleted and never committed data come back. *)
Theorem C61_redo_other_refuted : exists H ops st xs sets sets2 roots b s1 r2 rs2 b2, let n := num_versions ops in
  run H ops = Ok (st, xs) /\ put_value_sets H (store_reader st) sets n = Ok (roots, b) /\
  partly_written b st s1 /\ put_value_sets H (store_reader s1) sets2 n = Ok (r2 :: rs2, b2) /\
  r2 <> smt_root H (contents_at (history (ops ++ [Commit sets2])) n).
Proof.
  set (ops := [Commit [[(K00, Some va)]]]). set (sets := [[(K80, Some vb)]] : list value_set). set (sets2 := [[(K00, None); (K80, None); (KC0, Some vc)]] : list value_set).
  destruct (redo_ex2 toy (run toy ops) sets sets2 1 (smt_root toy (contents_at (history (ops ++ [Commit sets2])) 1)))
    as (st & xs & roots & b & r2 & rs2 & b2 & R & E1 & E2 & E3); [vm_compute; reflexivity|].
  exists toy, ops, st, xs, sets, sets2, roots, b, (nodes_written st b), r2, rs2, b2. cbv zeta. replace (num_versions ops) with 1%N by reflexivity.
  split; [exact R|]. split; [exact E1|]. split; [apply pw_nodes; done|]. split; [exact E2|exact E3].
Qed.
