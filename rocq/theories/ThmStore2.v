(** Histories, second part: batching, freshness, stale indices, purging, statistics, value histories. *)
From Verif Require Import Base Spec NodeType ProofDef TreeCache Tree Mock Driver KeyFacts SmtFacts ProofFacts NodeFacts Canon CanonSib ReadFacts PutFacts InsertFacts InsertInt InsertInt2 PutTop VersionFacts KeyOrder ValueFacts StoreFacts DriverFacts DriverFacts2 ThmStore.
From Coq Require Import Lia.
Local Opaque Spec.smt.

Section thm2.
Context (H : list byte -> bytes32).
Notation SInv := (SInv H).
Notation trn := (trn H).
Notation nodes_of := (nodes_of H).

(** *** C12: batching.  Two histories without purges that commit the same value sets, in batches of any
    sizes, with or without proofs, leave the same nodes, values and roots. *)
Theorem C12_batching_irrelevant (ops1 ops2 : list op) st1 xs1 st2 xs2 :
  run H ops1 = Ok (st1, xs1) -> run H ops2 = Ok (st2, xs2) ->
  (forall l, Purge l ∉ ops1) -> (forall l, Purge l ∉ ops2) -> history ops1 = history ops2 ->
  st_nodes st1 = st_nodes st2 /\ flat_map out_roots xs1 = flat_map out_roots xs2 /\
  forall k v, get (store_reader st1) k v = get (store_reader st2) k v.
Proof.
  intros R1 R2 P1 P2 Eh. split; [|split].
  - assert (G : forall ops st xs, run H ops = Ok (st, xs) -> (forall l, Purge l ∉ ops) ->
      forall nk nd, st_nodes st !! nk = Some nd <-> exists x, x ∈ trace0 H (history ops) /\ nodes_of x nk nd).
    { clear. intros ops st xs R P nk nd. apply run_inv in R as [_ S].
      assert (F : floor ops = 0%N).
      { rewrite <- (drop_purges_floor ops). f_equal. clear -P. induction ops as [|o ops IH]; [done|].
        destruct o; cbn; [f_equal; apply IH..|]; try (intros l Hl; apply (P l); by right). destruct (P least_readable). by left. }
      destruct (xrun_sim H ops) as [V _]. pose proof (si_trok _ _ _ _ _ _ S) as (T1 & T2 & _). rewrite (si_nodes _ _ _ _ _ _ S). split.
      - intros [(x & Hx & N) _]. apply elem_of_list_lookup in Hx as (i & Hx). destruct (Forall2_lookup_l _ _ _ _ _ V Hx) as (y & Hy & Vy).
        exists y. split; [by eapply elem_of_list_lookup_2|by eapply vsim_nodes].
      - intros (y & Hy & N). apply elem_of_list_lookup in Hy as (i & Hy). destruct (Forall2_lookup_r _ _ _ _ _ V Hy) as (x & Hx & Vy). split.
        + exists x. split; [by eapply elem_of_list_lookup_2|]. eapply vsim_nodes; [by apply vsim_sym|done].
        + intros s Sa. apply (si_floor _ _ _ _ _ _ S); [done|]. rewrite F. destruct Sa as (z & Hz & -> & Sz). apply T2 in Sz as [Sz _]; [|done]. lia. }
    apply map_eq. intros nk. apply option_eq. intros nd. rewrite (G _ _ _ R1 P1), (G _ _ _ R2 P2), Eh. done.
  - by rewrite (run_roots _ _ _ _ R1), (run_roots _ _ _ _ R2), Eh.
  - intros k v. by rewrite (C01_get _ _ _ _ _ _ R1), (C01_get _ _ _ _ _ _ R2), Eh.
Qed.
(** in particular one batch and one-by-one commits, after any history without purges *)
Theorem C12_batch_equals_one_by_one (ops : list op) (sets : list value_set) : (forall l, Purge l ∉ ops) ->
  exists st1 xs1 st2 xs2, run H (ops ++ [Commit sets]) = Ok (st1, xs1) /\ run H (ops ++ map (fun s => Commit [s]) sets) = Ok (st2, xs2) /\
    st_nodes st1 = st_nodes st2 /\ flat_map out_roots xs1 = flat_map out_roots xs2 /\
    forall k v, get (store_reader st1) k v = get (store_reader st2) k v.
Proof.
  intros P. destruct (C20_run_never_fails H (ops ++ [Commit sets])) as (st1 & xs1 & R1).
  destruct (C20_run_never_fails H (ops ++ map (fun s => Commit [s]) sets)) as (st2 & xs2 & R2).
  exists st1, xs1, st2, xs2. split; [done|]. split; [done|]. eapply C12_batching_irrelevant; [done|done| | |].
  - intros l [Hl|Hl%elem_of_list_singleton]%elem_of_app; [by eapply P|done].
  - intros l [Hl|Hl]%elem_of_app; [by eapply P|]. apply elem_of_list_fmap in Hl as (? & ? & _). done.
  - rewrite !history_app. f_equal. cbn. rewrite app_nil_r. unfold history. rewrite flat_map_concat_map, map_map. cbn. clear. induction sets as [|s sets IH]; [done|]. cbn. by f_equal.
Qed.

(** *** C20: fresh nodes *)
Theorem C20_fresh_nodes (ops : list op) st xs (sets : list value_set) roots b : run H ops = Ok (st, xs) ->
  put_value_sets H (store_reader st) sets (num_versions ops) = Ok (roots, b) ->
  (forall nk, is_Some (tb_nodes b !! nk) -> st_nodes st !! nk = None /\ (num_versions ops <= nk.1 < num_versions ops + N.of_nat (length sets))%N) /\
  exists st', write_tree_update_batch st b = Ok st'.
Proof.
  intros R P. apply run_inv in R as [_ S]. destruct (commit_batch H _ _ _ _ _ sets S) as (T & b' & pfss & P1 & P2 & P3 & P4).
  unfold num_versions in P. rewrite P in P1. injection P1 as -> ->.
  destruct (commit_ok H _ _ _ _ _ _ _ S T P3) as (D & st' & W & _). split; [|eauto].
  intros nk [nd E]. split; [by eapply map_disjoint_Some_l|]. apply (bo_nodes _ _ _ _ _ P3) in E as (x & Hx & N & _).
  apply elem_of_list_lookup in Hx as (i & Hx). pose proof (trn_maps H _ _ _ _ _ _ S i x Hx) as [Ev _]. apply lookup_lt_Some in Hx. rewrite trn_length in Hx.
  unfold num_versions. lia.
Qed.

(** a stale index refers to a node of the store or of the batch *)
Lemma stale_present st tr b hist f sets bt x nk : SInv st tr b hist f -> let n := N.of_nat (length hist) in
  tr_ok H (tr ++ trn tr b sets) -> batch_ok H (trn tr b sets) n sets bt -> x ∈ trn tr b sets -> stale_of x nk ->
  (nk.1 < vs_v x)%N /\ (tb_nodes bt ∪ st_nodes st) !! nk = Some (node_at H (vs_M0 x) (vs_ver0 x) nk.2).
Proof.
  intros S n T BO Hx Sx. pose proof T as (T1 & T2 & T3 & _). destruct (T2 x nk) as (Lt & y & Hy & N); [set_solver|done|]. split; [done|].
  assert (Vn : forall z, z ∈ trn tr b sets -> (n <= vs_v z)%N).
  { intros z (i & E)%elem_of_list_lookup. apply (trn_maps H _ _ _ _ _ _ S) in E as [-> _]. unfold n. lia. }
  apply lookup_union_Some_raw. apply elem_of_app in Hy as [Hy|Hy]; [right|left; apply (bo_nodes _ _ _ _ _ BO); eauto].
  assert (Vo : forall z, z ∈ tr -> (vs_v z < n)%N).
  { intros z Hz. unfold n. rewrite <- (si_len _ _ _ _ _ _ S). eapply tr_lt; [by eapply si_trok|done]. }
  split.
  - destruct (tb_nodes bt !! nk) as [nd|] eqn:E; [|done]. apply (bo_nodes _ _ _ _ _ BO) in E as (z & Hz & Nz & _). destruct N as [N _]. apply Vn in Hz. apply Vo in Hy. lia.
  - apply (si_nodes _ _ _ _ _ _ S). split; [eauto|]. intros s (z & Hz & -> & Sz). exfalso.
    assert (vs_v x = vs_v z) by (apply (T3 x z nk); [set_solver|set_solver|done|done]). apply Vn in Hx. apply Vo in Hz. lia.
Qed.
Lemma trok_next st tr b hist f sets : SInv st tr b hist f ->
  ((tr ++ trn tr b sets = [] /\ last_bt b (trn tr b sets) = b0) \/ Tr H (tr ++ trn tr b sets) (last_bt b (trn tr b sets))) -> tr_ok H (tr ++ trn tr b sets).
Proof.
  intros S [[-> _]|T]; [|by apply tr_inv in T as [? _]]. split_and!; [done|..]; intros *; try (intros ?%elem_of_nil; done).
Qed.

(** *** C21: stale indices *)
Theorem C21_stale_index_refers_to_existing_node (ops : list op) st xs (sets : list value_set) roots b s nk : run H ops = Ok (st, xs) ->
  put_value_sets H (store_reader st) sets (num_versions ops) = Ok (roots, b) -> (s, nk) ∈ tb_stale b ->
  is_Some ((tb_nodes b ∪ st_nodes st) !! nk) /\ (nk.1 < s)%N /\ (num_versions ops <= s < num_versions ops + N.of_nat (length sets))%N.
Proof.
  intros R P E. apply run_inv in R as [_ S]. destruct (commit_batch H _ _ _ _ _ sets S) as (T & b' & pfss & P1 & P2 & P3 & P4).
  unfold num_versions in P. rewrite P in P1. injection P1 as -> ->. apply (bo_stale _ _ _ _ _ P3) in E as (x & Hx & -> & Sx).
  destruct (stale_present _ _ _ _ _ _ _ x nk S (trok_next _ _ _ _ _ _ S T) P3 Hx Sx) as [A B]. split; [eauto|]. split; [done|].
  apply elem_of_list_lookup in Hx as (i & Hx). pose proof (trn_maps H _ _ _ _ _ _ S i x Hx) as [Ev _]. apply lookup_lt_Some in Hx. rewrite trn_length in Hx.
  unfold num_versions. lia.
Qed.
Lemma out_stale ops st xs i x b s nk : run H ops = Ok (st, xs) -> xs !! i = Some x -> out_batch x = Some b -> (s, nk) ∈ tb_stale b ->
  exists y, y ∈ (xrun H tb0 ops).1 /\ vs_v y = s /\ stale_of y nk /\ (num_versions (take i ops) <= s < num_versions (take (S i) ops))%N.
Proof.
  intros R Ex Eb Es. apply run_inv in R as [O S]. destruct (outs_at H ops _ _ _ _ _ O Ex) as (o & Eo & Oo). cbn [app] in Oo.
  destruct (out_batch_ok H _ _ _ _ _ Oo Eb) as [BO Ext]. destruct (proj1 (bo_stale _ _ _ _ _ BO _ _) Es) as (y & Hy & Evs & Sy). subst s.
  exists y. split.
  - rewrite <- (take_drop_middle ops i o Eo). rewrite xrun_app. destruct (xrun_prefix H (drop (Datatypes.S i) ops) (xop H (xrun H tb0 (take i ops)) o)) as [l El].
    unfold xrun in El |- *. cbn [fold_left]. rewrite El. unfold xrun in Ext. rewrite Ext. set_solver.
  - split; [done|]. split; [done|]. destruct (run_ok H (take i ops)) as (st' & xs' & R' & _ & S').
    apply elem_of_list_lookup in Hy as (j & Hy). pose proof (trn_maps H _ _ _ _ _ _ S' j y Hy) as [Ev _]. apply lookup_lt_Some in Hy. rewrite trn_length in Hy.
    rewrite (take_S_r _ _ _ Eo), num_versions_app. unfold num_versions at 1 2 3. cbn. rewrite app_nil_r. unfold num_versions. lia.
Qed.
Lemma num_versions_mono ops i j : i <= j -> (num_versions (take i ops) <= num_versions (take j ops))%N.
Proof.
  intros L. replace (take j ops) with (take i ops ++ take (j - i) (drop i ops)) by (rewrite take_take_drop; f_equal; lia). rewrite num_versions_app. lia.
Qed.
(** over a whole run every node key is marked stale at most once *)
Theorem C21_stale_at_most_once (ops : list op) st xs i j x y b b' s s' nk : run H ops = Ok (st, xs) ->
  xs !! i = Some x -> xs !! j = Some y -> out_batch x = Some b -> out_batch y = Some b' ->
  (s, nk) ∈ tb_stale b -> (s', nk) ∈ tb_stale b' -> i = j /\ s = s'.
Proof.
  intros R Ex Ey Eb Eb' E E'. destruct (out_stale _ _ _ _ _ _ _ _ R Ex Eb E) as (z & Hz & Vz & Sz & Lz).
  destruct (out_stale _ _ _ _ _ _ _ _ R Ey Eb' E') as (z' & Hz' & Vz' & Sz' & Lz').
  apply run_inv in R as [_ S]. pose proof (si_trok _ _ _ _ _ _ S) as (_ & _ & T3 & _).
  pose proof (T3 z z' nk Hz Hz' Sz Sz') as Ev. assert (s = s') as <- by congruence. split; [|done].
  destruct (decide (i < j)) as [L|L]; [pose proof (num_versions_mono ops (Datatypes.S i) j ltac:(lia)); lia|].
  destruct (decide (j < i)) as [L'|L']; [pose proof (num_versions_mono ops (Datatypes.S j) i ltac:(lia)); lia|]. lia.
Qed.
(** a node marked stale since [s] belongs to no version from [s] on *)
Theorem C21_stale_not_in_later_versions (ops : list op) st xs i x b s nk w : run H ops = Ok (st, xs) ->
  xs !! i = Some x -> out_batch x = Some b -> (s, nk) ∈ tb_stale b -> (s <= w)%N -> readable ops w ->
  ~ reach (store_reader st) w nk.
Proof.
  intros R Ex Eb E L [L1 L2] Hr. destruct (out_stale _ _ _ _ _ _ _ _ R Ex Eb E) as (z & Hz & Vz & Sz & _).
  apply run_inv in R as [_ S]. destruct (read_ok H _ _ _ _ _ w S L1 L2) as (y & Ey & Vy & _). apply elem_of_list_lookup_2 in Ey.
  rewrite <- Vy in Hr. apply (reach_node_in H _ _ _ _ _ y nk S Ey) in Hr; [|lia].
  pose proof (si_trok _ _ _ _ _ _ S) as (_ & _ & _ & T4 & _). apply (T4 z y nk Hz Ey Sz); [lia|done].
Qed.

(** *** C22: purging *)
Theorem C22_purge_safe (ops : list op) st xs (l : version) : run H ops = Ok (st, xs) ->
  exists st', purge_stale_nodes st l = Ok st' /\
    forall v k, readable ops v -> (l <= v)%N \/ v = (num_versions ops - 1)%N ->
      get (store_reader st') k v = get (store_reader st) k v /\
      get_with_proof H (store_reader st') k v = get_with_proof H (store_reader st) k v /\
      get_root_hash H (store_reader st') v = get_root_hash H (store_reader st) v /\
      get_leaf_count (store_reader st') v = get_leaf_count (store_reader st) v.
Proof.
  intros R. destruct (C20_run_never_fails H (ops ++ [Purge l])) as (st' & xs' & R').
  pose proof R' as R2. unfold run in R2. rewrite run_from_app in R2. fold (run H ops) in R2. rewrite R, bind_Ok in R2. cbn [run_from step] in R2.
  destruct (purge_stale_nodes st l) as [st2| |] eqn:E; [|done..]. rewrite !bind_Ok in R2. injection R2 as -> <-. exists st'. split; [done|].
  intros v k Lr Lv. destruct (C11_immutable H ops [Purge l] st xs st' _ v k R R') as (A1 & A2 & A3 & A4 & A5 & A6); [apply Lr| |done].
  destruct Lr as [Lr1 Lr2]. split; [|rewrite num_versions_app; lia].
  destruct (floor_inv ops (0, 0)%N ltac:(by left)) as (_ & B & _). cbn [snd] in B. unfold floor in *. rewrite fold_left_app. cbn [fold_left floor_step fst snd]. rewrite B. lia.
Qed.
(** leaving out the purges changes nothing the client sees: roots, proofs, update batches (nodes, values,
    stale indices, statistics) of all commits, and all reads at readable versions *)
Theorem C22_as_if_never_purged (ops : list op) st xs st0 xs0 : run H ops = Ok (st, xs) -> run H (drop_purges ops) = Ok (st0, xs0) ->
  xs0 = List.filter (fun x => negb (is_out_purge x)) xs /\
  forall v k, readable ops v ->
    get (store_reader st) k v = get (store_reader st0) k v /\
    get_with_proof H (store_reader st) k v = get_with_proof H (store_reader st0) k v /\
    get_root_hash H (store_reader st) v = get_root_hash H (store_reader st0) v.
Proof.
  intros R R0. split.
  - apply run_inv in R as [O _]. apply run_inv in R0 as [O0 _]. by eapply drop_purges_outs.
  - intros v k L. assert (L0 : readable (drop_purges ops) v).
    { split; [rewrite drop_purges_floor; lia|]. destruct L as [_ L]. unfold num_versions in *. by rewrite drop_purges_history. }
    rewrite (C01_get _ _ _ _ _ _ R), (C01_get _ _ _ _ _ _ R0), drop_purges_history.
    destruct (C03_root_hash _ _ _ _ _ R L) as [-> _]. destruct (C03_root_hash _ _ _ _ _ R0 L0) as [-> _].
    destruct (read_proof H _ _ _ v k R L) as (n & T & ->). destruct (read_proof H _ _ _ v k R0 L0) as (n' & T' & ->).
    rewrite drop_purges_history in *. rewrite (term_unique _ _ _ _ T' T). done.
Qed.

Lemma purge_loop_stale l : forall st st', purge_loop st l = Ok st' -> forall log, log ∈ st_stale st' -> log ∈ st_stale st /\ log ∉ l.
Proof.
  induction l as [|lg l IH]; intros st st'; cbn [purge_loop].
  - intros [= <-] log Hl. split; [done|apply not_elem_of_nil].
  - destruct (ensure_ _ _); [|done..]. rewrite bind_Ok. intros E log Hl. destruct (IH _ _ E log Hl) as [A B]. cbn in A. set_solver.
Qed.
(** *** C23: completeness of purging holds for all nodes but roots (it fails for roots, see below) *)
Theorem C23_purge_complete_partial (ops : list op) st xs (l : version) nk : run H (ops ++ [Purge l]) = Ok (st, xs) ->
  num_versions ops <> 0%N -> (num_versions ops - 1 <= l)%N -> is_Some (st_nodes st !! nk) -> nk.2 <> [] ->
  reach (store_reader st) (num_versions ops - 1) nk.
Proof.
  intros R Nz L [nd E] Ne. pose proof R as R2. unfold run in R2. rewrite run_from_app in R2. fold (run H ops) in R2.
  destruct (run H ops) as [[st1 xs1]| |]; [|done..]. rewrite bind_Ok in R2. cbn [run_from step] in R2.
  destruct (purge_stale_nodes st1 l) as [st2| |] eqn:Ep; [|done..]. rewrite !bind_Ok in R2. injection R2 as -> _. apply run_inv in R as [_ S].
  assert (Nv : num_versions (ops ++ [Purge l]) = num_versions ops) by (rewrite num_versions_app; unfold num_versions; cbn; lia).
  assert (Lr : readable (ops ++ [Purge l]) (num_versions ops - 1)) by (rewrite <- Nv; apply latest_readable; lia).
  destruct Lr as [L1 L2]. destruct (read_ok H _ _ _ _ _ _ S L1 L2) as (y & Ey & Vy & _). apply elem_of_list_lookup_2 in Ey.
  rewrite <- Vy. apply (reach_node_in H _ _ _ _ _ y nk S Ey); [lia|].
  apply (si_nodes _ _ _ _ _ _ S) in E as [(x & Hx & N) Hs].
  pose proof (si_trok _ _ _ _ _ _ S) as T. pose proof (tr_lt H _ x T Hx) as Lx. destruct T as (_ & _ & _ & _ & _ & T6).
  rewrite (si_len _ _ _ _ _ _ S) in Lx. fold (num_versions (ops ++ [Purge l])) in Lx.
  destruct (T6 x y nk nd Hx Ey N Ne) as [?|(z & Hz & Lz & Sz)]; [lia|done|]. exfalso.
  assert (Sz' : (vs_v z, nk) ∈ st_stale st) by (apply Hs; by exists z).
  destruct (purge_loop_stale _ _ _ Ep _ Sz') as [A B]. apply B. apply elem_of_elements, elem_of_filter. split; [cbn; lia|done].
Qed.

(** *** C24: statistics *)
Definition opt_is_leaf (o : option node) : bool := match o with Some (Leaf _) => true | _ => false end.
Theorem C24_stats_accurate (ops : list op) st xs (sets : list value_set) roots b : run H ops = Ok (st, xs) ->
  put_value_sets H (store_reader st) sets (num_versions ops) = Ok (roots, b) ->
  length (tb_stats b) = length sets /\
    forall i s, tb_stats b !! i = Some s -> let v := (num_versions ops + N.of_nat i)%N in
    new_nodes s = size (filter (fun kn => kn.1.1 = v) (tb_nodes b)) /\
    new_leaves s = size (filter (fun kn => kn.1.1 = v /\ node_is_leaf kn.2 = true) (tb_nodes b)) /\
    stale_nodes s = size (filter (fun sn => sn.1 = v) (tb_stale b)) /\
    stale_leaves s = size (filter (fun sn => sn.1 = v /\ opt_is_leaf ((tb_nodes b ∪ st_nodes st) !! sn.2) = true) (tb_stale b)).
Proof.
  intros R P. apply run_inv in R as [_ S]. destruct (commit_batch H _ _ _ _ _ sets S) as (T & b' & pfss & P1 & P2 & P3 & P4).
  unfold num_versions in P. rewrite P in P1. injection P1 as -> ->. pose proof (bo_stats _ _ _ _ _ P3) as F.
  split; [rewrite <- (Forall2_length _ _ _ F); apply trn_length|]. intros i s Es v.
  destruct (Forall2_lookup_r _ _ _ _ _ F Es) as (x & Ex & (N & Q & HN & HQ & ->)).
  pose proof (trn_maps H _ _ _ _ _ _ S i x Ex) as [Ev _]. assert (Hx : x ∈ trn (xrun H tb0 ops).1 (xrun H tb0 ops).2 sets) by (by eapply elem_of_list_lookup_2).
  assert (Vx : vs_v x = v) by (unfold v, num_versions; lia).
  assert (Inj : forall y, y ∈ trn (xrun H tb0 ops).1 (xrun H tb0 ops).2 sets -> vs_v y = v -> y = x).
  { intros y Hy Vy. eapply (tr_inj H); [by eapply trok_next|set_solver|set_solver|congruence]. }
  assert (EN : N = filter (fun kn => kn.1.1 = v) (tb_nodes b')).
  { apply map_eq. intros nk. apply option_eq. intros nd. rewrite HN, map_filter_lookup_Some, (bo_nodes _ _ _ _ _ P3). cbn. split.
    - intros Nx. split; [eauto|]. destruct Nx as [-> _]. done.
    - intros [(y & Hy & Ny) E]. assert (y = x) as ->; [|done]. apply Inj; [done|]. destruct Ny as [E' _]. congruence. }
  assert (ES : forall w nk, w = v /\ nk ∈ Q <-> (w, nk) ∈ tb_stale b' /\ w = v).
  { intros w nk. rewrite HQ, (bo_stale _ _ _ _ _ P3). split.
    - intros [-> Sx]. split; [|done]. by exists x.
    - intros [(y & Hy & -> & Sy) E]. split; [done|]. rewrite <- (Inj y Hy E). done. }
  cbn [new_nodes new_leaves stale_nodes stale_leaves]. split_and!.
  - by rewrite EN.
  - rewrite EN. f_equal. apply map_eq. intros nk. apply option_eq. intros nd. rewrite !map_filter_lookup_Some. cbn. naive_solver.
  - unfold size, set_size. cbn. rewrite <- (fmap_length (fun nk => (v, nk)) (elements Q)). apply Permutation_length, NoDup_Permutation.
    + apply NoDup_fmap_2; [intros ? ? [= ?]; done|apply NoDup_elements].
    + apply NoDup_elements.
    + intros [w nk]. rewrite elem_of_elements, elem_of_filter, elem_of_list_fmap. cbn. split.
      * intros (nk' & [= -> ->] & E). rewrite elem_of_elements in E. destruct (ES v nk') as [G _]. destruct G; done.
      * intros [E1 E2]. destruct (ES w nk) as [_ G]. destruct G as [-> G]; [done|]. exists nk. split; [done|]. by apply elem_of_elements.
  - unfold size, set_size. cbn. rewrite <- (fmap_length (fun nk => (v, nk)) (elements (filter _ Q))). apply Permutation_length, NoDup_Permutation.
    + apply NoDup_fmap_2; [intros ? ? [= ?]; done|apply NoDup_elements].
    + apply NoDup_elements.
    + intros [w nk]. rewrite elem_of_elements, elem_of_filter, elem_of_list_fmap. cbn.
      assert (G : forall nk, nk ∈ Q -> leafy (T0 H (vs_M0 x) (vs_ver0 x) nk) = opt_is_leaf ((tb_nodes b' ∪ st_nodes st) !! nk)).
      { intros nk' Hq. apply HQ in Hq. destruct (stale_present _ _ _ _ _ _ _ x nk' S (trok_next _ _ _ _ _ _ S T) P3 Hx Hq) as [_ ->].
        destruct Hq as [Hq _]. unfold T0. by rewrite decide_True. }
      split.
      * intros (nk' & [= -> ->] & E). rewrite elem_of_elements, elem_of_filter in E. destruct E as [E1 E2]. rewrite G in E1 by done. destruct (ES v nk') as [G' _]. destruct G'; done.
      * intros [[E1 E2] E3]. destruct (ES w nk) as [_ G']. destruct G' as [-> G']; [done|]. exists nk. split; [done|]. apply elem_of_elements, elem_of_filter. rewrite G by done. done.
Qed.

(** *** C51: value histories *)
Theorem C51_old_versions_refused (h : gmap key (list (version * option value))) l lv y v k x :
  h !! k = Some (l ++ [(lv, y)]) -> (v < lv)%N -> exists e, put_value_hist h v k x = Err e.
Proof. intros E L. unfold put_value_hist. rewrite E, rev_app_distr. cbn. rewrite (proj2 (N.compare_lt_iff v lv) L). eauto. Qed.
Theorem C51_history_increasing (ops : list op) st xs k l : run H ops = Ok (st, xs) -> st_history st !! k = Some l ->
  StronglySorted (fun a b => (a.1 < b.1)%N) l /\
    forall v x, (v, x) ∈ l <-> exists s, history ops !! N.to_nat v = Some s /\ exists l1 l2, s = l1 ++ (k, x) :: l2 /\ forall y, (k, y) ∉ l2.
Proof.
  intros R E. apply run_inv in R as [_ S]. pose proof (si_hist _ _ _ _ _ _ S k) as Hk. rewrite E in Hk. cbn in Hk. subst l. split; [apply hl_sorted|].
  intros v x. rewrite elem_of_hl. setoid_rewrite last_write_Some. split.
  - intros (i & s & E1 & -> & E2). exists s. split; [by rewrite N.add_0_l, Nat2N.id|done].
  - intros (s & E1 & E2). exists (N.to_nat v), s. split; [done|]. split; [lia|done].
Qed.
End thm2.
