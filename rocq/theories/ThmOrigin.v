(** C82: however a store began - empty, with any first version, or restored from another store that is in use, be it a replica
    itself - it serves and goes on alike. *)
From Coq Require Import Strings.String.
From Verif Require BatchTop.
From Verif Require Import Base Spec SpecOrder SpecRange NodeType ProofDef TreeCache Tree BatchTree Mock Driver Iterator Exclusion Restore KeyFacts SmtFacts ProofFacts NodeFacts Canon CanonSib ReadFacts PutFacts InsertFacts PutTop VersionFacts ValueFacts StoreFacts DriverFacts DriverFacts2 LeafVersion KeyOrder OrderFacts IterFacts ExclFacts ThmProof ThmStore ThmStore2 ThmRange ThmIter ThmExcl Demo Toy
  RangeFacts RestoreFacts RestoreFacts2 RestoreVerify RestoreTop RestoreRec RestoreDriver RestoreRun ThmRestore ThmCrash ThmConc ThmContinue FirstFacts ThmFirst ThmSame ThmBatch.
From Coq Require Import Lia.
Local Opaque Spec.smt root_inputs ms_in.

(** *** Specification *)
(** the contents of version [w] after the operations [more], if [n] was the next version and the contents before were [c] *)
Definition later (n : version) (c : version -> gmap key value) (more : list op) (w : version) : gmap key value :=
  if (w <? n)%N then c w else apply_sets (c (n - 1)%N) (take (N.to_nat (w - n) + 1) (history more)).

Section origin.
Context (H : list byte -> bytes32).
(** [in_use n f c s]: the store [s] has been in use; its next version is [n], its oldest readable version is [f], and version [w] has
    the contents [c w]. *)
Inductive in_use : version -> version -> (version -> gmap key value) -> store -> Prop :=
| in_use_empty : in_use 0 0 (fun _ => ∅) store_empty
| in_use_first v o s sets st x : op_sets o = s :: sets -> inserts s -> step H store_empty v o = Ok (st, x) ->
    in_use (v + N.of_nat (length (op_sets o))) v (fun w => contents_at (op_sets o) (w - v)) st
| in_use_restored n f c src ovf vs v root evs rs s : in_use n f c src -> (f <= vs)%N -> (vs < n)%N -> c vs <> ∅ -> ~ hash_broken H (root_inputs H (c vs)) ->
    get_root_hash H (store_reader src) vs = Ok root -> deliver_all H ovf (store_reader src) vs (c vs) v root evs = Ok (rs, []) -> finish H rs = Ok s ->
    in_use (v + 1) v (fun _ => c vs) s
| in_use_more n f c s more s' ys : in_use n f c s -> run_from H s n more = Ok (s', ys) ->
    in_use (n + num_versions more) (fold_left floor_step more (f, n)).1 (later n c more) s'.
(** two readers, two versions: every query has the same answer *)
Definition same_answers (r : reader) (v : version) (r' : reader) (v' : version) : Prop :=
  (forall k, get r k v = get r' k v') /\
  (forall k, get_with_proof H r k v = get_with_proof H r' k v') /\
  get_root_hash H r v = get_root_hash H r' v' /\ get_root_hash_option H r v = get_root_hash_option H r' v' /\
  get_leaf_count r v = get_leaf_count r' v' /\
  (forall k, get_range_proof H r k v = get_range_proof H r' k v') /\
  (forall k, get_with_exclusion_proof H r k v = get_with_exclusion_proof H r' k v') /\
  (forall start, exists it it' l, iter_new r v start = Ok it /\ iter_new r' v' start = Ok it' /\ yields r it l /\ yields r' it' l) /\
  (forall i, exists it it' l, iter_new_by_index r v i = Ok it /\ iter_new_by_index r' v' i = Ok it' /\ yields r it l /\ yields r' it' l).

(** *** Proof *)
Lemma view_same r v r' v' m : view H r v m -> view H r' v' m -> same_answers r v r' v'.
Proof.
  intros V V'. pose proof (view_reader H _ _ _ V) as (A1 & A2 & A3 & A4 & A5 & A6 & A7 & A8 & A9 & A10). pose proof (view_reader H _ _ _ V') as (B1 & B2 & B3 & B4 & B5 & B6 & B7 & B8 & B9 & B10).
  destruct V as (ver & St & _ & Hk). destruct V' as (ver' & St' & _ & Hk').
  assert (P : forall k, get_with_proof H r k v = get_with_proof H r' k v').
  { intros k. destruct (get_with_proof_canon H _ _ ver k v St Hk) as (n & T & ->). destruct (get_with_proof_canon H _ _ ver' k v' St' Hk') as (n' & T' & ->). do 3 f_equal. by eapply term_unique. }
  split; [intros k; by rewrite A1, B1|]. split; [exact P|]. split; [by rewrite A3, B3|]. split; [by rewrite A4, B4|]. split; [by rewrite A5, B5|].
  split; [intros k; unfold get_range_proof; by rewrite P|]. split; [|split].
  - intros k. destruct (m !! k) as [x|] eqn:Ek.
    { unfold get_with_exclusion_proof. rewrite P. destruct (B2 k) as (p & -> & _). rewrite Ek, !bind_Ok. done. }
    unfold get_with_exclusion_proof. rewrite P. destruct (B2 k) as (p & -> & _). rewrite Ek, !bind_Ok. cbn beta iota.
    destruct (decide (m = ∅)) as [Em|Ne].
    + assert (N : forall r0 v0 ver0, stored H r0 (H <$> m) ver0 v0 -> get_bounding_path r0 k v0 = Err (EOther "Cannot manufacture nonexistence proof by exclusion for the empty tree")).
      { intros r0 v0 ver0 [S0 _]. unfold get_bounding_path, search_for_closest_node, nk_root. rewrite Em in S0.
        assert (N : rd_node r0 (v0, []) = Some Null) by (rewrite S0; f_equal; apply node_at_null; by rewrite U_nil, fmap_empty).
        destruct (key_nibbles k); cbn [search_loop]; rewrite N; reflexivity. }
      by rewrite (N _ _ _ St), (N _ _ _ St').
    + destruct (bounding_ok H (H <$> m) ver r v St k) as (l & rr & -> & Nl & Nr); [by rewrite lookup_fmap, Ek|intros Z; by apply fmap_empty_inv in Z|].
      destruct (bounding_ok H (H <$> m) ver' r' v' St' k) as (l' & rr' & -> & Nl' & Nr'); [by rewrite lookup_fmap, Ek|intros Z; by apply fmap_empty_inv in Z|].
      rewrite !bind_Ok. rewrite (nearest_unique _ _ _ _ _ Nl Nl'), (nearest_unique _ _ _ _ _ Nr Nr'). destruct l' as [l'|], rr' as [rr'|]; rewrite ?P; done.
  - intros start. destruct (A9 start) as (it & I & Y). destruct (B9 start) as (it' & I' & Y'). by exists it, it', (entries_from start m).
  - intros i. destruct (A10 i) as (it & I & Y). destruct (B10 i) as (it' & I' & Y'). by exists it, it', (drop i (entries m)).
Qed.
Definition okay (n f : version) (c : version -> gmap key value) (s : store) : Prop := exists B ops', N.of_nat (length (history ops')) = n /\
  (let tb := xrun H tb0 ops' in SInvB H B s tb.1 tb.2 (history ops') f) /\ (forall w, (f <= w)%N -> (w < n)%N -> contents_at (history ops') w = c w) /\ last_contents (history ops') = c (n - 1)%N.
Lemma okay_view n f c s w : okay n f c s -> (f <= w)%N -> (w < n)%N -> view H (store_reader s) w (c w).
Proof.
  intros (B & ops' & En & S & Ec & _) L1 L2. rewrite <- Ec by done. eapply sb_view; [exact S|done|]. by rewrite En.
Qed.
Lemma okay_more n f c s more : okay n f c s -> exists s' ys, run_from H s n more = Ok (s', ys) /\ okay (n + num_versions more) (fold_left floor_step more (f, n)).1 (later n c more) s'.
Proof.
  intros (B & ops' & En & S & Ec & El). destruct (run_from_okB H B more s _ _ _ S) as (s' & ys & R & _ & S'). rewrite En in R, S'. exists s', ys. split; [done|].
  exists B, (ops' ++ more). rewrite history_app, xrun_app. split; [rewrite app_length; unfold num_versions; lia|]. split; [exact S'|].
  assert (X : forall w, (n <= w)%N \/ n = 0%N -> contents_at (history ops' ++ history more) w = apply_sets (c (n - 1)%N) (take (N.to_nat (w - n) + 1) (history more))).
  { intros w Lw. unfold contents_at. rewrite take_app_ge by lia. unfold apply_sets. rewrite fold_left_app. rewrite <- El. unfold last_contents, apply_sets. do 2 f_equal. lia. }
  assert (Mono : forall more fn, (fn.1 <= (fold_left floor_step more fn).1)%N).
  { clear. induction more as [|o more IH]; intros fn; cbn [fold_left]; [lia|]. etrans; [|apply IH]. destruct o; cbn [floor_step fst]; lia. }
  split.
  - intros w L1 L2. unfold later. destruct (N.ltb_spec w n) as [Lw|Lw].
    + rewrite <- Ec; [|pose proof (Mono more (f, n)) as M; cbn [fst] in M; lia|done]. unfold contents_at. rewrite take_app_le by lia. done.
    + apply X. by left.
  - unfold later. destruct (N.ltb_spec (n + num_versions more - 1) n) as [Lw|Lw].
    + assert (E0 : history more = []) by (apply length_zero_iff_nil; unfold num_versions in *; lia). rewrite E0, app_nil_r, El. f_equal. unfold num_versions. rewrite E0. cbn [length]. lia.
    + rewrite <- X by lia. unfold contents_at, last_contents. rewrite take_ge; [done|]. rewrite app_length. unfold num_versions. lia.
Qed.
Lemma deliver_ext ovf src vs src' vs' m v root evs : (forall k, get_range_proof H src k vs = get_range_proof H src' k vs') -> forall rs rest,
  deliver H ovf src vs m v root evs rs rest = deliver H ovf src' vs' m v root evs rs rest.
Proof.
  intros E. induction evs as [|[n|] evs IH]; intros rs rest; cbn [deliver]; [done| |].
  - destruct (last (take (n + 1) rest)) as [[k x]|]; [|apply IH]. rewrite E. destruct (get_range_proof H src' k vs') as [p| |]; [rewrite !bind_Ok|done|done].
    destruct (add_chunk H ovf rs (take (n + 1) rest) p) as [[rs' [e|]]| |]; [done| |done|done]. rewrite !bind_Ok. apply IH.
  - destruct (restore_new H (rs_store rs) v root) as [rs'| |]; [rewrite !bind_Ok; apply IH|done|done].
Qed.
(** a store that was written at once, with the same contents *)
Definition at_once (m : gmap key value) : list op := [Commit [BatchTop.ins (entries m)]].
Lemma at_once_contents m : contents_at (history (at_once m)) 0 = m.
Proof. apply apply_entries. Qed.
Lemma at_once_readable m : readable (at_once m) 0.
Proof. split; cbn; lia. Qed.
Lemma okay_source ovf n f c src vs v evs : okay n f c src -> (f <= vs)%N -> (vs < n)%N -> exists st xs, run H (at_once (c vs)) = Ok (st, xs) /\
  same_answers (store_reader src) vs (store_reader st) 0 /\
  forall root, deliver_all H ovf (store_reader src) vs (c vs) v root evs = deliver_all H ovf (store_reader st) 0 (c vs) v root evs.
Proof.
  intros O L1 L2. pose proof (okay_view _ _ _ _ _ O L1 L2) as V. destruct (run_ok H (at_once (c vs))) as (st & xs & R & _). exists st, xs. split; [done|].
  pose proof (run_view H _ _ _ 0%N R (at_once_readable _)) as V'. rewrite at_once_contents in V'. pose proof (view_same _ _ _ _ _ V V') as S. split; [exact S|].
  intros root. unfold deliver_all. destruct (restore_new H store_empty v root) as [rs0| |]; [rewrite !bind_Ok|done|done]. apply deliver_ext. apply S.
Qed.
Lemma okay_restored n f c src ovf vs v root evs rs s : okay n f c src -> (f <= vs)%N -> (vs < n)%N -> c vs <> ∅ -> ~ hash_broken H (root_inputs H (c vs)) ->
  get_root_hash H (store_reader src) vs = Ok root -> deliver_all H ovf (store_reader src) vs (c vs) v root evs = Ok (rs, []) -> finish H rs = Ok s -> okay (v + 1) v (fun _ => c vs) s.
Proof.
  intros O L1 L2 Ne NB Er D F. destruct (okay_source ovf _ _ _ _ _ v evs O L1 L2) as (st & xs & R & (_ & _ & Eroot & _) & E). rewrite E in D. rewrite Eroot in Er. 
  pose proof (at_once_contents (c vs)) as Em. assert (Bs : based H v (c vs) s).
  { pose proof (restored_based H ovf (at_once (c vs)) st xs 0%N v root evs rs s R (at_once_readable _) Er) as Q. cbn zeta in Q. rewrite Em in Q. by destruct (Q Ne D F). }
  exists v, [Commit (hist_of v (c vs))]. assert (Ehi : history [Commit (hist_of v (c vs))] = hist_of v (c vs)) by (cbn; by rewrite app_nil_r). rewrite Ehi.
  split; [rewrite hist_of_length; lia|]. split; [by apply (based_inv H v (c vs) s)|]. split.
  - intros w Lw1 Lw2. assert (w = v) as -> by lia. apply hist_of_at.
  - apply hist_of_last.
Qed.
Lemma okay_first v o s sets st x : op_sets o = s :: sets -> inserts s -> step H store_empty v o = Ok (st, x) ->
  okay (v + N.of_nat (length (op_sets o))) v (fun w => contents_at (op_sets o) (w - v)) st.
Proof.
  intros Eo Hs E. assert (Eh : history [o] = op_sets o) by (unfold history; cbn [flat_map]; by rewrite app_nil_r).
  assert (Lc : last_contents (op_sets o) = contents_at (op_sets o) (v + N.of_nat (length (op_sets o)) - 1 - v)).
  { unfold last_contents, contents_at. rewrite take_ge; [done|]. rewrite Eo. cbn [length]. lia. }
  destruct (decide (v = 0%N)) as [->|Hv].
  - assert (R : run H [o] = Ok (st, [x])) by (unfold run; cbn [run_from]; rewrite E, !bind_Ok; reflexivity).
    apply run_inv in R as [_ S]. exists 0%N, [o]. rewrite Eh in *. split; [lia|]. split; [|split; [intros w _ _; by rewrite N.sub_0_r|exact Lc]].
    assert (Ef : Driver.floor [o] = 0%N) by (unfold Driver.floor; destruct o; [done|done|discriminate Eo]). rewrite Ef in S. exact S.
  - destruct (first_commit H v o s sets Hv Eo Hs) as (st1 & x1 & E1 & _ & S1). rewrite E in E1. injection E1 as <- <-.
    exists v, ([Commit (pad v)] ++ [o]). rewrite history_app, Eh. assert (Ep : history [Commit (pad v)] = pad v) by (cbn; by rewrite app_nil_r). rewrite Ep, xrun_app.
    split; [rewrite app_length; pose proof (pad_length v); lia|]. split; [exact S1|]. split.
    + intros w L1 _. by apply pad_after.
    + rewrite <- Lc. unfold last_contents, apply_sets. rewrite fold_left_app. f_equal. apply (apply_nils (N.to_nat v)).
Qed.
Lemma in_use_okay n f c s : in_use n f c s -> okay n f c s.
Proof.
  induction 1 as [|v o s sets st x Eo Hs E|n f c src ovf vs v root evs rs s _ O L1 L2 Ne NB Er D F|n f c s more s' ys _ O E].
  - exists 0%N, []. split; [done|]. split; [apply si_empty|]. split; [lia|done].
  - by eapply okay_first.
  - by eapply okay_restored.
  - destruct (okay_more n f c s more O) as (s2 & ys2 & E2 & O2). rewrite E in E2. by injection E2 as <- <-.
Qed.

(** *** C82: reading *)
Theorem C82_reads n f c s w : in_use n f c s -> (f <= w)%N -> (w < n)%N -> reads_as H s w (c w).
Proof. intros U L1 L2. apply view_reads. eapply okay_view; [by apply in_use_okay|done|done]. Qed.
(** two stores, whatever their origins: versions with the same contents answer every query alike *)
Theorem C82_same_answers n f c s w n' f' c' s' w' : in_use n f c s -> (f <= w)%N -> (w < n)%N -> in_use n' f' c' s' -> (f' <= w')%N -> (w' < n')%N ->
  c w = c' w' -> same_answers (store_reader s) w (store_reader s') w'.
Proof.
  intros U L1 L2 U' L1' L2' E. pose proof (okay_view _ _ _ _ _ (in_use_okay _ _ _ _ U) L1 L2) as V. pose proof (okay_view _ _ _ _ _ (in_use_okay _ _ _ _ U') L1' L2') as V'. rewrite <- E in V'. by eapply view_same.
Qed.
(** *** going on *)
(** every further operation succeeds *)
Theorem C82_goes_on n f c s more : in_use n f c s -> exists s' ys, run_from H s n more = Ok (s', ys) /\
  in_use (n + num_versions more) (fold_left floor_step more (f, n)).1 (later n c more) s'.
Proof.
  intros U. destruct (okay_more n f c s more (in_use_okay _ _ _ _ U)) as (s' & ys & R & _). exists s', ys. split; [done|]. by eapply in_use_more.
Qed.
(** what a commit returns: the roots of the new contents, and proofs that verify *)
Theorem C82_commit n f c s sets ovf : in_use n f c s -> exists roots pfss b,
  put_value_sets H (store_reader s) sets n = Ok (roots, b) /\ put_value_sets_with_proof H (store_reader s) sets n = Ok (zip roots pfss, b) /\ length pfss = length sets /\
  roots = map (fun i => smt_root H (apply_sets (c (n - 1)%N) (take (S i) sets))) (seq 0 (length sets)) /\
  forall i x pfs, sets !! i = Some x -> pfss !! i = Some pfs ->
    verify_update H ovf pfs (smt_root H (apply_sets (c (n - 1)%N) (take i sets))) (smt_root H (apply_sets (c (n - 1)%N) (take (S i) sets))) x = Ok tt.
Proof.
  intros U. apply in_use_okay in U as (B & ops' & En & S & _ & El). cbn zeta in S. destruct (commit_batchB H B _ _ _ _ _ sets S) as (_ & b & pfss & P1 & P2 & P3 & P4). rewrite En in P1, P2.
  eexists _, pfss, b. split; [exact P1|]. split; [exact P2|]. split; [by eapply pfss_ok_length|]. split.
  - apply list_eq. intros i. rewrite !list_lookup_fmap. destruct (trn H (xrun H tb0 ops').1 (xrun H tb0 ops').2 sets !! i) as [x|] eqn:E.
    + pose proof (lookup_lt_Some _ _ _ E) as Li. rewrite trn_length in Li. rewrite lookup_seq_lt by done. cbn [fmap option_fmap option_map].
      destruct (trn_mapsB H B _ _ _ _ _ sets S i x E) as [_ ->]. rewrite ms_nil. do 2 f_equal. unfold contents_at. rewrite take_app_ge by lia. rewrite <- El. unfold last_contents, apply_sets. rewrite fold_left_app. do 2 f_equal. lia.
    + apply lookup_ge_None in E. rewrite trn_length in E. by rewrite lookup_seq_ge.
  - intros i x pfs Ex Ep. rewrite (sb_bmap _ _ _ _ _ _ _ S), El in P4. eapply pfss_update; [exact P4|done|done].
Qed.
(** the same value sets on the same contents: the same roots and the same proofs *)
Theorem C82_same_commits n f c s n' f' c' s' sets : in_use n f c s -> in_use n' f' c' s' -> c (n - 1)%N = c' (n' - 1)%N -> exists rp b b',
  put_value_sets_with_proof H (store_reader s) sets n = Ok (rp, b) /\ put_value_sets_with_proof H (store_reader s') sets n' = Ok (rp, b') /\
  put_value_sets H (store_reader s) sets n = Ok (rp.*1, b) /\ put_value_sets H (store_reader s') sets n' = Ok (rp.*1, b').
Proof.
  intros U U' Ec. destruct (C82_commit n f c s sets true U) as (roots & _ & b0 & P0 & _ & _ & Er & _). destruct (C82_commit n' f' c' s' sets true U') as (roots' & _ & b0' & P0' & _ & _ & Er' & _). rewrite Ec in Er. rewrite <- Er' in Er. subst roots'.
  apply in_use_okay in U as (B & ops1 & En & S & _ & El). apply in_use_okay in U' as (B' & ops2 & En' & S' & _ & El'). cbn zeta in S, S'.
  destruct (commit_batchB H B _ _ _ _ _ sets S) as (_ & b & pfss & P1 & P2 & P3 & P4). destruct (commit_batchB H B' _ _ _ _ _ sets S') as (_ & b' & pfss' & P1' & P2' & P3' & P4'). rewrite En in P1, P2. rewrite En' in P1', P2'.
  rewrite P0 in P1. apply Ok_inj in P1. injection P1 as Eb <-. rewrite P0' in P1'. apply Ok_inj in P1'. injection P1' as Eb' <-. rewrite <- Eb in P2. rewrite <- Eb' in P2'.
  rewrite (sb_bmap _ _ _ _ _ _ _ S), El, Ec in P4. rewrite (sb_bmap _ _ _ _ _ _ _ S'), El' in P4'. pose proof (pfss_unique H _ _ _ _ P4 P4') as <-.
  assert (F : (zip roots pfss).*1 = roots). { rewrite fst_zip; [done|]. rewrite (pfss_ok_length _ _ _ _ P4), Er', map_length, seq_length. lia. }
  exists (zip roots pfss), b0, b0'. rewrite F. done.
Qed.
(** *** being copied: whatever the chunks and crashes, all of them are accepted, and the copy is in use *)
Theorem C82_restore n f c src ovf vs v root evs : in_use n f c src -> (f <= vs)%N -> (vs < n)%N -> c vs <> ∅ -> ~ hash_broken H (root_inputs H (c vs)) ->
  get_root_hash H (store_reader src) vs = Ok root -> exists rs s, deliver_all H ovf (store_reader src) vs (c vs) v root (evs ++ [Deliver (size (c vs))]) = Ok (rs, []) /\ finish H rs = Ok s /\
  in_use (v + 1) v (fun _ => c vs) s.
Proof.
  intros U L1 L2 Ne NB Er. pose proof (in_use_okay _ _ _ _ U) as O. destruct (okay_source ovf _ _ _ _ _ v (evs ++ [Deliver (size (c vs))]) O L1 L2) as (st & xs & R & (_ & _ & Eroot & _) & E).
  pose proof Er as Er0. rewrite Eroot in Er. pose proof (C34_restore_completes H ovf (at_once (c vs)) st xs 0%N v root evs R (at_once_readable _) Er) as Q. cbn zeta in Q. rewrite at_once_contents in Q.
  destruct (Q Ne) as [|(rs & s & D & F & _)]; [done|]. rewrite <- E in D. exists rs, s. split; [exact D|]. split; [exact F|]. by eapply in_use_restored.
Qed.

(** *** Crashes and concurrent readers *)
(** The states the store passes through, as long as version [v] is kept: between two operations, in the middle of writing a batch, in the
    middle of a purge (partly_written, partly_purged: ThmCrash.v). *)
Inductive passes_from (n f : version) (s : store) (v : version) : store -> Prop :=
| pf_between more s1 ys : run_from H s n more = Ok (s1, ys) -> ((fold_left floor_step more (f, n)).1 <= v)%N -> passes_from n f s v s1
| pf_commit more s1 ys o x b s2 s3 : run_from H s n more = Ok (s1, ys) -> ((fold_left floor_step more (f, n)).1 <= v)%N ->
    step H s1 (n + num_versions more) o = Ok (s2, x) -> out_batch x = Some b -> partly_written b s1 s3 -> passes_from n f s v s3
| pf_purge more s1 ys l s3 : run_from H s n more = Ok (s1, ys) -> ((fold_left floor_step (more ++ [Purge l]) (f, n)).1 <= v)%N ->
    partly_purged l s1 s3 -> passes_from n f s v s3.
(** a reader that answers each request for a node or a value from one of those states *)
Definition reads_along (n f : version) (s : store) (v : version) (rd : reader) : Prop :=
  (forall nk, exists s', passes_from n f s v s' /\ rd_node rd nk = st_nodes s' !! nk) /\
  (forall w k, exists s', passes_from n f s v s' /\ rd_value rd w k = store_value s' w k).

Lemma inv_vview B ops' s f w : let tb := xrun H tb0 ops' in SInvB H B s tb.1 tb.2 (history ops') f -> (f <= w)%N -> (w < N.of_nat (length (history ops')))%N ->
  exists x, tb.1 !! N.to_nat w = Some x /\ vview H (a_ver (vs_a x)) (store_reader s) w (contents_at (history ops') w).
Proof.
  intros tb S L1 L2. destruct (read_okB H B _ _ _ _ _ w S L1 L2) as (x & E & Vx & Mx & St).
  exists x. split; [done|]. split; [done|]. split; [|intros k; by eapply value_okB].
  intros p n k y Mn EU. rewrite (value_okB H B _ _ _ _ _ _ _ S).
  pose proof (run_leaf_value H ops' x (N.to_nat w) k (p ++ [n]) (H y)) as L. rewrite N2Nat.id in L. rewrite L; [..|done| | |].
  + assert (X : U (p ++ [n]) (contents_at (history ops') w) !! k = Some y) by (rewrite EU; apply lookup_singleton). by apply U_lookup in X as [X _].
  + destruct p; discriminate.
  + rewrite parent_snoc, Mx, U_fm_size. done.
  + rewrite Mx, U_fm, EU. apply map_fmap_singleton.
Qed.
Lemma inv_nodes_lt B s tr b hist f nk nd : SInvB H B s tr b hist f -> st_nodes s !! nk = Some nd -> (nk.1 < N.of_nat (length hist))%N.
Proof.
  intros S En. apply (sb_nodes _ _ _ _ _ _ _ S) in En as [(y & Hy & _ & [-> _]) _]. rewrite <- (sb_len _ _ _ _ _ _ _ S). apply (tr_lt H); [by eapply sb_trok|done].
Qed.
Lemma inv_commit_keeps B s tb hist f o x b s1 s' : SInvB H B s tb.1 tb.2 hist f -> let n := N.of_nat (length hist) in step H s n o = Ok (s1, x) -> out_batch x = Some b -> partly_written b s s' ->
  (forall nk nd, st_nodes s !! nk = Some nd -> st_nodes s' !! nk = Some nd /\ (nk.1 < n)%N) /\ (forall w k, (w < n)%N -> store_value s' w k = store_value s w k).
Proof.
  intros S n E Eb P. destruct (step_okB H B s tb hist f o S) as (st1' & x' & E' & O & _). fold n in E'. rewrite E in E'. injection E' as <- <-.
  assert (BO : batch_ok H (trn H tb.1 tb.2 (op_sets o)) n (op_sets o) b).
  { destruct o as [sets|sets|l], x as [r b'|r b'|]; try done; injection Eb as ->; cbn in O.
    - apply O. - by destruct O as (pfss & _ & _ & O). }
  destruct (commit_batchB H B s tb.1 tb.2 hist f (op_sets o) S) as (T & _).
  destruct (commit_okB H B s tb.1 tb.2 hist f (op_sets o) b S T BO) as (D & _).
  assert (Vl : forall w k y, tb_values b !! (w, k) = Some y -> (n <= w)%N).
  { intros w k y. rewrite (bo_values _ _ _ _ _ BO), bvals_lookup by (intros; apply lookup_empty). rewrite lookup_empty. intros [Hl|?]; [|done]. apply hl_lt in Hl; lia. }
  assert (Inv : (forall nk nd, st_nodes s !! nk = Some nd -> st_nodes s' !! nk = Some nd) /\
    (forall w k, (w < n)%N -> store_value s' w k = store_value s w k)).
  { clear -P D Vl. induction P as [|s' nk nd P [I1 I2] E|s' w k y h P [I1 I2] E Ph|s' log P [I1 I2] E]; [done|..].
    - split; [|exact I2]. cbn. intros nk' nd' E'. rewrite lookup_insert_ne; [by apply I1|]. intros ->. eapply map_disjoint_spec; [exact D|exact E|exact E'].
    - split; [exact I1|]. intros w' k' L. rewrite (put_value_older s' h w k y) by (first [done|apply Vl in E; lia]). by apply I2.
    - split; [exact I1|exact I2]. }
  destruct Inv as [I1 I2]. split; [|exact I2]. intros nk nd En. split; [by apply I1|by eapply inv_nodes_lt].
Qed.
Lemma inv_purge_keeps B s tb hist f l s' : SInvB H B s tb.1 tb.2 hist f -> partly_purged l s s' -> exists s2,
  SInvB H B s2 tb.1 tb.2 hist (pfloor f l (length hist)) /\
  (forall nk nd, st_nodes s2 !! nk = Some nd -> st_nodes s' !! nk = Some nd /\ (nk.1 < N.of_nat (length hist))%N) /\ (forall w k, store_value s' w k = store_value s2 w k).
Proof.
  intros S P. destruct (purge_okB H B s tb.1 tb.2 hist f l S) as (s2 & Ep & S2). exists s2. split; [exact S2|].
  apply purge_loop_nodes in Ep as [Eh Ep].
  assert (Inv : (forall nk nd, st_nodes s2 !! nk = Some nd -> st_nodes s' !! nk = Some nd) /\ st_history s' = st_history s).
  { clear -P Ep. induction P as [|s' log P [I1 I2] E L|s' log P [I1 I2] E L].
    - split; [|done]. intros nk nd E. by apply Ep in E as [? _].
    - split; [|done]. cbn. intros nk nd E'. rewrite lookup_delete_ne; [by apply I1|]. apply Ep in E' as [_ E']. apply E'. apply elem_of_elements, elem_of_filter. done.
    - done. }
  destruct Inv as [I1 I2]. split.
  - intros nk nd En. split; [by apply I1|by eapply inv_nodes_lt].
  - intros w k. unfold store_value. by rewrite I2, Eh.
Qed.
Lemma passes_from_view n f c s w : in_use n f c s -> (f <= w)%N -> (w < n)%N -> exists ver, forall s', passes_from n f s w s' -> vview H ver (store_reader s') w (c w).
Proof.
  intros U L1 L2. apply in_use_okay in U as (B & ops' & En & S & Ec & El). cbn zeta in S. rewrite <- Ec by done.
  destruct (inv_vview B ops' s f w S L1) as (x & Ex & _); [by rewrite En|]. exists (a_ver (vs_a x)).
  assert (G : forall more s1 f', (let tb := xrun H (xrun H tb0 ops') more in SInvB H B s1 tb.1 tb.2 (history ops' ++ history more) f') -> (f' <= w)%N -> vview H (a_ver (vs_a x)) (store_reader s1) w (contents_at (history ops') w)).
  { intros more s1 f' S1 Lf. rewrite <- xrun_app, <- history_app in S1. cbn zeta in S1. destruct (inv_vview B (ops' ++ more) s1 f' w S1 Lf) as (x' & Ex' & V); [rewrite history_app, app_length; lia|].
    rewrite history_more in V by (unfold num_versions; lia). rewrite xrun_app in Ex'. destruct (xrun_prefix H more (xrun H tb0 ops')) as [l Epre]. rewrite Epre in Ex'.
    rewrite lookup_app_l in Ex' by (by eapply lookup_lt_Some). rewrite Ex in Ex'. injection Ex' as <-. exact V. }
  assert (Q : forall more s1 ys, run_from H s n more = Ok (s1, ys) -> let tb := xrun H (xrun H tb0 ops') more in SInvB H B s1 tb.1 tb.2 (history ops' ++ history more) (fold_left floor_step more (f, n)).1).
  { intros more s1 ys R. destruct (run_from_okB H B more s _ _ _ S) as (s2 & ys2 & R2 & _ & S2). rewrite En in R2, S2. rewrite R in R2. injection R2 as <- <-. exact S2. }
  assert (Len : forall more, N.of_nat (length (history ops' ++ history more)) = (n + num_versions more)%N) by (intros more; rewrite app_length; unfold num_versions; lia).
  intros s' [more s1 ys R Lf|more s1 ys o y b s2 s3 R Lf E Eb P|more s1 ys l s3 R Lf P].
  - eapply G; [by eapply Q|done].
  - pose proof (Q _ _ _ R) as S1. pose proof (inv_commit_keeps B s1 _ _ _ o y b s2 s3 S1) as K. cbn zeta in K. rewrite Len in K. destruct (K E Eb P) as [I1 I2].
    eapply (vview_mono H _ (store_reader s1) _ w _ (n + num_versions more)); [eapply G; [exact S1|done]|lia|exact I1|exact I2].
  - pose proof (Q _ _ _ R) as S1. destruct (inv_purge_keeps B s1 _ _ _ l s3 S1 P) as (s4 & S4 & I1 & I2). rewrite Len in I1.
    eapply (vview_mono H _ (store_reader s4) _ w _ (n + num_versions more)); [eapply G; [exact S4|]|lia|exact I1|intros; apply I2].
    rewrite fold_left_app in Lf. cbn [fold_left floor_step fst] in Lf. unfold pfloor. rewrite Len.
    assert (F2 : forall more fn, (fold_left floor_step more fn).2 = (fn.2 + num_versions more)%N).
    { clear. unfold num_versions, history. induction more as [|o more IH]; intros fn; cbn [fold_left flat_map length]; [lia|]. rewrite IH, app_length. destruct o; cbn [floor_step snd op_sets length]; lia. }
    rewrite F2 in Lf. exact Lf.
Qed.
Lemma reads_along_view n f c s w rd : in_use n f c s -> (f <= w)%N -> (w < n)%N -> reads_along n f s w rd -> view H rd w (c w).
Proof.
  intros U L1 L2 [Cn Cv]. destruct (passes_from_view n f c s w U L1 L2) as (ver & V). exists ver. split; [split|split].
  - destruct (Cn (w, [])) as (s' & Ps & ->). by destruct (V s' Ps) as [[? _] _].
  - intros p Hp i Ne. destruct (Cn (ver (p ++ [i]), p ++ [i])) as (s' & Ps & ->). destruct (V s' Ps) as [[_ K] _]. by apply K.
  - intros p i k y Mn E. destruct (Cv (ver (p ++ [i])) k) as (s' & Ps & ->). destruct (V s' Ps) as (_ & K & _). by eapply K.
  - intros k. destruct (Cv w k) as (s' & Ps & ->). destruct (V s' Ps) as (_ & _ & K). apply K.
Qed.
(** A crash at any point of a commit or of a purge, and any number of operations before it: every version that is kept reads as before. *)
Theorem C82_crash n f c s w s' : in_use n f c s -> (f <= w)%N -> (w < n)%N -> passes_from n f s w s' -> reads_as H s' w (c w).
Proof. intros U L1 L2 P. apply view_reads. destruct (passes_from_view n f c s w U L1 L2) as (ver & V). exists ver. by apply V. Qed.
(** A reader that runs concurrently with all this gets to every query the answer of the undisturbed store. *)
Theorem C82_concurrent n f c s w rd : in_use n f c s -> (f <= w)%N -> (w < n)%N -> reads_along n f s w rd ->
  reader_reads_as H rd w (c w) /\ same_answers rd w (store_reader s) w.
Proof.
  intros U L1 L2 A. pose proof (reads_along_view n f c s w rd U L1 L2 A) as V. split; [by apply view_reader|]. eapply view_same; [exact V|]. eapply okay_view; [by apply in_use_okay|done|done].
Qed.

(** *** the other way to insert: batch_put_value_sets (C19) *)
Lemma batch_sets_runB B st tr b hist f sets hcs : SInvB H B st tr b hist f -> length hcs = length sets -> Forall (fun s => s <> []) sets ->
  Forall2 (agrees H) (trn H tr b (map BatchTop.ins sets)) hcs ->
  let n := N.of_nat (length hist) in let rd := store_reader st in
  batch_sets H rd n (zip sets hcs) (cache_new rd n) = put_sets H rd n (map BatchTop.ins sets) (cache_new rd n).
Proof.
  intros S L F A n rd. pose proof (sb_len _ _ _ _ _ _ _ S) as Len. unfold trn in A. destruct (decide (tr = [])) as [Et|Et].
  - assert (n = 0%N) as -> by (unfold n; rewrite <- Len, Et; done). apply batch_sets_first; [|done|done|done].
    intros nk. cbn. destruct (st_nodes st !! nk) as [nd|] eqn:E; [|done]. apply (sb_nodes _ _ _ _ _ _ _ S) in E as [(x & Hx & _) _].
    rewrite Et in Hx. by apply elem_of_nil in Hx.
  - destruct (sb_binv H B st tr b hist f S Et) as (BI & R & _). rewrite Len in *. fold n in BI, R, A. by eapply batch_sets_next.
Qed.
Theorem C82_batch n f c s sets : in_use n f c s -> Forall (fun x => x <> []) sets ->
  batch_put_value_sets H (store_reader s) sets None n = put_value_sets H (store_reader s) (insertions sets) n.
Proof.
  intros U F. apply in_use_okay in U as (B & ops' & En & S & _). cbn zeta in S. unfold batch_put_value_sets. rewrite map_length, Nat.eqb_refl. cbn [assert_]. rewrite bind_Ok.
  pose proof (batch_sets_runB B _ _ _ _ _ sets (map (fun _ => None) sets) S) as E. cbv zeta in E. rewrite En in E. rewrite E; [done|by rewrite map_length|done|].
  clear E. match goal with |- Forall2 _ ?l _ => assert (L : length l = length sets) by (by rewrite trn_length, map_length); revert L; generalize l end.
  clear. induction sets as [|x sets IH]; intros [|y l] L; try done; cbn [map]; constructor; [done|]. apply IH. cbn in L. lia.
Qed.
End origin.

(** *** A concrete case: the demo tree is restored as version 9, gets an empty version 10, is restored from there as version 3 and then changed. *)
Theorem demo_replica : exists st xs rs1 s1 s2 y2 rs3 s3 s4 y4 root, run toy demo = Ok (st, xs) /\ in_use toy 5 2 (later 0 (fun _ => ∅) demo) st /\
  deliver_all toy true (store_reader st) 4 demo_map 9 root [Deliver 0; Crash; Deliver 3] = Ok (rs1, []) /\ finish toy rs1 = Ok s1 /\ in_use toy 10 9 (fun _ => demo_map) s1 /\
  run_from toy s1 10 [Commit [[]]] = Ok (s2, y2) /\
  deliver_all toy true (store_reader s2) 10 demo_map 3 root [Deliver 1; Deliver 3] = Ok (rs3, []) /\ finish toy rs3 = Ok s3 /\ in_use toy 4 3 (fun _ => demo_map) s3 /\
  run_from toy s3 4 [CommitP [[(K80, None)]]] = Ok (s4, y4) /\
  get_root_hash toy (store_reader s4) 4 = Ok (smt_root toy {[ K00 := vb; KC0 := vc ]}) /\ same_answers toy (store_reader st) 4 (store_reader s4) 3.
Proof.
  destruct (C82_goes_on toy 0 0 _ _ demo (in_use_empty toy)) as (st & xs & R & U). assert (E5 : (0 + num_versions demo)%N = 5%N) by reflexivity. assert (Ef : (fold_left floor_step demo (0, 0)%N).1 = 2%N) by reflexivity. rewrite E5, Ef in U.
  set (c := later 0 (fun _ => ∅) demo) in *. assert (Ec : c 4%N = demo_map) by (apply (bool_decide_eq_true_1 _); vm_compute; reflexivity).
  destruct (C82_reads toy 5 2 c st 4 U ltac:(lia) ltac:(lia)) as (_ & _ & Er & _). rewrite Ec in Er.
  assert (Ne : demo_map <> ∅) by (intros Z; apply (f_equal (lookup K00)) in Z; revert Z; vm_compute; discriminate).
  assert (Sz : size demo_map = 3) by (vm_compute; reflexivity).
  pose proof (C82_restore toy 5 2 c st true 4 9 (smt_root toy demo_map) [Deliver 0; Crash] U ltac:(lia) ltac:(lia)) as Q. rewrite Ec, Sz in Q. destruct (Q Ne toy_demo Er) as (rs1 & s1 & D1 & F1 & U1). clear Q. cbn [app] in D1. change (9 + 1)%N with 10%N in U1.
  destruct (C82_goes_on toy 10 9 _ _ [Commit [[]]] U1) as (s2 & y2 & R2 & U2). change (10 + num_versions [Commit [[]]])%N with 11%N in U2. change (fold_left floor_step [Commit [[]]] (9, 10)%N).1 with 9%N in U2.
  set (c2 := later 10 (fun _ => demo_map) [Commit [[]]]) in *. assert (Ec2 : c2 10%N = demo_map) by reflexivity.
  destruct (C82_reads toy 11 9 c2 s2 10 U2 ltac:(lia) ltac:(lia)) as (_ & _ & Er2 & _). rewrite Ec2 in Er2.
  pose proof (C82_restore toy 11 9 c2 s2 true 10 3 (smt_root toy demo_map) [Deliver 1] U2 ltac:(lia) ltac:(lia)) as Q. rewrite Ec2, Sz in Q. destruct (Q Ne toy_demo Er2) as (rs3 & s3 & D3 & F3 & U3). clear Q. cbn [app] in D3. change (3 + 1)%N with 4%N in U3.
  destruct (C82_goes_on toy 4 3 _ _ [CommitP [[(K80, None)]]] U3) as (s4 & y4 & R4 & U4). change (4 + num_versions [CommitP [[(K80, None)]]])%N with 5%N in U4. change (fold_left floor_step [CommitP [[(K80, None)]]] (3, 4)%N).1 with 3%N in U4.
  set (c4 := later 4 (fun _ => demo_map) [CommitP [[(K80, None)]]]) in *. assert (E43 : c4 3%N = demo_map) by reflexivity.
  assert (E44 : c4 4%N = {[ K00 := vb; KC0 := vc ]}) by (apply (bool_decide_eq_true_1 _); vm_compute; reflexivity).
  exists st, xs, rs1, s1, s2, y2, rs3, s3, s4, y4, (smt_root toy demo_map).
  split; [exact R|]. split; [exact U|]. split; [exact D1|]. split; [exact F1|]. split; [exact U1|]. split; [exact R2|]. split; [exact D3|]. split; [exact F3|]. split; [exact U3|]. split; [exact R4|]. split.
  - destruct (C82_reads toy 5 3 c4 s4 4 U4 ltac:(lia) ltac:(lia)) as (_ & _ & Er4 & _). rewrite E44 in Er4. exact Er4.
  - apply (C82_same_answers toy 5 2 c st 4 5 3 c4 s4 3 U ltac:(lia) ltac:(lia) U4 ltac:(lia) ltac:(lia)). rewrite Ec, E43. reflexivity.
Qed.
