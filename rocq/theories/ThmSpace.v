(** C83: how many nodes a store holds. *)
From Coq Require Import Strings.String.
From Verif Require BatchTop.
From Verif Require Import Base Spec NodeType ProofDef TreeCache Tree Mock MockExtra Driver KeyFacts SmtFacts ProofFacts NodeFacts Canon ReadFacts PutFacts InsertFacts PutTop VersionFacts ValueFacts StoreFacts DriverFacts DriverFacts2 ThmStore ThmStore2 ThmCrash ThmContinue ThmFirst ThmOrigin Demo Toy.
From Coq Require Import Lia.
Local Opaque Spec.smt root_inputs ms_in.

(** *** Specification *)
(** the sum of one of the counters of NodeStats over all versions of all commits *)
Definition out_stats (x : out) : list node_stats := match out_batch x with Some b => tb_stats b | None => [] end.
Definition total (g : node_stats -> nat) (xs : list out) : nat := sum_list (map g (flat_map out_stats xs)).
(** how many of the nodes are roots *)
Definition num_roots (s : store) : nat := size (filter (fun kn => kn.1.2 = []) (st_nodes s)).

Section space.
Context (H : list byte -> bytes32).
Lemma sum_list_app (l1 l2 : list nat) : sum_list (l1 ++ l2) = sum_list l1 + sum_list l2.
Proof. induction l1 as [|a l IH]; [done|]. change ((a :: l) ++ l2) with (a :: (l ++ l2)). change (sum_list (a :: (l ++ l2))) with (a + sum_list (l ++ l2)). change (sum_list (a :: l)) with (a + sum_list l). rewrite IH. lia. Qed.
Lemma total_cons g x xs : total g (x :: xs) = sum_list (map g (out_stats x)) + total g xs.
Proof. unfold total. cbn [flat_map]. by rewrite map_app, sum_list_app. Qed.
Lemma sum_nodes tr : forall sts (N : gmap nodekey node), NoDup (map vs_v tr) -> Forall2 (stats_of H) tr sts -> (forall nk nd, N !! nk = Some nd <-> exists x, x ∈ tr /\ nodes_of H x nk nd) ->
  size N = sum_list (map new_nodes sts).
Proof.
  induction tr as [|x tr IH]; intros sts N ND F E.
  - apply Forall2_nil_inv_l in F as ->. cbn. apply map_size_empty_iff. apply map_empty. intros nk. destruct (N !! nk) as [nd|] eqn:En; [|done]. apply E in En as (y & Hy & _). by apply elem_of_nil in Hy.
  - apply Forall2_cons_inv_l in F as (st & sts' & (N0 & S0 & HN & HS & ->) & F & ->). cbn [map] in ND. apply NoDup_cons in ND as [Nx ND].
    assert (Vn : forall y nk nd, y ∈ tr -> nodes_of H y nk nd -> nk.1 <> vs_v x). { intros y nk nd Hy [Ey _] Ex. apply Nx. apply elem_of_list_fmap. exists y. split; [congruence|done]. }
    rewrite <- (map_filter_union_complement (fun kn => kn.1.1 = vs_v x) N), map_size_disj_union by apply map_disjoint_filter_complement.
    cbn [map]. change (sum_list (?a :: ?l)) with (a + sum_list l). f_equal.
    + cbn [new_nodes]. f_equal. apply map_eq. intros nk. apply option_eq. intros nd. rewrite map_filter_lookup_Some, HN, E. cbn. split.
      * intros [(y & [->|Hy]%elem_of_cons & Ny) Ev]; [done|]. by apply (Vn y nk nd Hy) in Ny.
      * intros Ny. split; [exists x; split; [by left|done]|]. by destruct Ny.
    + apply IH; [done|done|]. intros nk nd. rewrite map_filter_lookup_Some, E. cbn. split.
      * intros [(y & [->|Hy]%elem_of_cons & Ny) Ev]; [by destruct Ny|]. eauto.
      * intros (y & Hy & Ny). split; [exists y; split; [by right|done]|]. by eapply Vn.
Qed.
Lemma sum_stale tr : forall sts (S : gset (version * nodekey)), NoDup (map vs_v tr) -> Forall2 (stats_of H) tr sts -> (forall s nk, (s, nk) ∈ S <-> stale_at tr s nk) ->
  size S = sum_list (map stale_nodes sts).
Proof.
  induction tr as [|x tr IH]; intros sts S ND F E.
  - apply Forall2_nil_inv_l in F as ->. cbn. apply size_empty_iff. intros [s nk]. rewrite E. split; [|by intros ?%elem_of_empty]. intros (y & Hy & _). by apply elem_of_nil in Hy.
  - apply Forall2_cons_inv_l in F as (st & sts' & (N0 & S0 & HN & HS & ->) & F & ->). cbn [map] in ND. apply NoDup_cons in ND as [Nx ND].
    assert (Vn : forall y, y ∈ tr -> vs_v y <> vs_v x). { intros y Hy Ex. apply Nx. apply elem_of_list_fmap. exists y. split; [congruence|done]. }
    rewrite <- (filter_union_complement_L (fun sn => sn.1 = vs_v x) S S), size_union by (intros z [Z1 _]%elem_of_filter [Z2 _]%elem_of_filter; done).
    cbn [map]. change (sum_list (?a :: ?l)) with (a + sum_list l). f_equal.
    + cbn [stale_nodes]. unfold size, set_size. cbn. rewrite <- (fmap_length (fun nk => (vs_v x, nk)) (elements S0)). apply Permutation_length, NoDup_Permutation.
      * apply NoDup_elements.
      * apply NoDup_fmap_2; [intros ? ? [= ?]; done|apply NoDup_elements].
      * intros [w nk]. rewrite elem_of_elements, elem_of_filter, elem_of_list_fmap, E. cbn. split.
        -- intros [-> (y & [->|Hy]%elem_of_cons & Ey & Sy)]; [|symmetry in Ey; by apply Vn in Ey]. exists nk. split; [done|]. by apply elem_of_elements, HS.
        -- intros (nk' & [= -> ->] & E'). apply elem_of_elements, HS in E'. split; [done|]. exists x. split; [by left|done].
    + apply IH; [done|done|]. intros s nk. rewrite elem_of_filter, E. cbn. split.
      * intros [Ns (y & [->|Hy]%elem_of_cons & -> & Sy)]; [done|]. by exists y.
      * intros (y & Hy & -> & Sy). split; [by apply Vn|]. exists y. split; [by right|done].
Qed.
Lemma write_sizes s b s' : write_tree_update_batch s b = Ok s' -> tb_nodes b ##ₘ st_nodes s -> size (st_nodes s') = size (tb_nodes b) + size (st_nodes s) /\ size (st_stale s') = size (tb_stale b) + size (st_stale s).
Proof.
  intros E D. unfold write_tree_update_batch, write_node_batch in E. destruct (assert_ _); [|done..]. rewrite !bind_Ok in E.
  destruct (write_values (st_history s) (sorted_values (tb_values b))) as [h| |]; [|done..]. rewrite !bind_Ok in E. cbn [st_stale st_nodes st_history st_overwrite] in E.
  destruct (bool_decide_reflect (tb_stale b ∩ st_stale s = ∅)) as [Ds|]; [|done]. cbn [ensure_] in E. rewrite bind_Ok in E. apply Ok_inj in E. subst s'. cbn [st_stale st_nodes]. split.
  - by apply map_size_disj_union.
  - apply size_union. set_solver.
Qed.
Lemma purge_sizes L : forall s s', NoDup L -> (forall x, x ∈ L -> x ∈ st_stale s) -> purge_loop s L = Ok s' ->
  size (st_nodes s) = length L + size (st_nodes s') /\ size (st_stale s) = length L + size (st_stale s').
Proof.
  induction L as [|log L IH]; intros s s' ND HL E; cbn [purge_loop] in E; [apply Ok_inj in E; by subst|]. apply NoDup_cons in ND as [N1 ND].
  destruct (st_nodes s !! log.2) as [nd|] eqn:En; [|done]. cbn [ensure_] in E. rewrite bind_Ok in E. apply IH in E as [E1 E2]; [|done|]; cbn [st_nodes st_stale] in *.
  - split.
    + rewrite map_size_delete, En in E1. assert (size (st_nodes s) <> 0). { intros Z. apply map_size_empty_iff in Z. rewrite Z in En. by rewrite lookup_empty in En. } cbn [length]. lia.
    + assert (In : log ∈ st_stale s) by (apply HL; by left). cbn [length].
      assert (Sz : size (st_stale s) = size ({[ log ]} ∪ (st_stale s ∖ {[ log ]}))). { f_equal. apply set_eq. intros z. destruct (decide (z = log)) as [->|]; set_solver. }
      rewrite Sz, size_union, size_singleton by set_solver. lia.
  - intros x Hx. apply elem_of_difference. split; [apply HL; by right|]. intros ->%elem_of_singleton. done.
Qed.

Lemma step_sizes B s tb hist f o s1 x : SInvB H B s tb.1 tb.2 hist f -> step H s (N.of_nat (length hist)) o = Ok (s1, x) ->
  num_nodes s1 + sum_list (map stale_nodes (out_stats x)) + size (st_stale s) = size (st_stale s1) + sum_list (map new_nodes (out_stats x)) + num_nodes s.
Proof.
  intros S E. destruct (step_okB H B s tb hist f o S) as (s2 & x2 & E2 & O & _). rewrite E in E2. injection E2 as <- <-. unfold num_nodes.
  assert (C : forall b, batch_ok H (trn H tb.1 tb.2 (op_sets o)) (N.of_nat (length hist)) (op_sets o) b -> write_tree_update_batch s b = Ok s1 -> 
    size (st_nodes s1) + sum_list (map stale_nodes (tb_stats b)) + size (st_stale s) = size (st_stale s1) + sum_list (map new_nodes (tb_stats b)) + size (st_nodes s)).
  { intros b BO W. destruct (commit_batchB H B s tb.1 tb.2 hist f (op_sets o) S) as (T & _). destruct (commit_okB H B s tb.1 tb.2 hist f (op_sets o) b S T BO) as (D & _).
    destruct (write_sizes _ _ _ W D) as [-> ->].
    assert (ND : NoDup (map vs_v (trn H tb.1 tb.2 (op_sets o)))).
    { apply NoDup_alt. intros i j v Ei Ej. rewrite list_lookup_fmap in Ei, Ej. apply fmap_Some in Ei as (y & Ey & ->). apply fmap_Some in Ej as (z & Ez & Ev).
      destruct (trn_mapsB H B _ _ _ _ _ _ S i y Ey) as [Ey1 _]. destruct (trn_mapsB H B _ _ _ _ _ _ S j z Ez) as [Ez' _]. rewrite Ey1, Ez' in Ev. clear -Ev. lia. }
    rewrite <- (sum_nodes _ _ (tb_nodes b) ND (bo_stats _ _ _ _ _ BO) (bo_nodes _ _ _ _ _ BO)), <- (sum_stale _ _ (tb_stale b) ND (bo_stats _ _ _ _ _ BO) (bo_stale _ _ _ _ _ BO)). lia. }
  destruct o as [sets|sets|l]; cbn [step] in E.
  - destruct (put_value_sets H (store_reader s) sets (N.of_nat (length hist))) as [[roots b]| |]; [|done..]. rewrite bind_Ok in E. destruct (write_tree_update_batch s b) as [s2| |] eqn:W; [|done..]. rewrite bind_Ok in E. injection E as -> <-.
    destruct O as [_ O]. by apply C.
  - destruct (put_value_sets_with_proof H (store_reader s) sets (N.of_nat (length hist))) as [[roots b]| |]; [|done..]. rewrite bind_Ok in E. destruct (write_tree_update_batch s b) as [s2| |] eqn:W; [|done..]. rewrite bind_Ok in E. injection E as -> <-.
    destruct O as (pfss & _ & _ & O). by apply C.
  - destruct (purge_stale_nodes s l) as [s2| |] eqn:Ep; [|done..]. rewrite bind_Ok in E. injection E as -> <-. unfold out_stats. cbn [out_batch map sum_list sum_list_with].
    unfold purge_stale_nodes in Ep. apply purge_sizes in Ep as [E1 E2]; [|apply NoDup_elements|intros z Hz; by apply elem_of_elements, elem_of_filter in Hz as [_ Hz]]. change (sum_list (@nil nat)) with 0. lia.
Qed.
Lemma run_sizes B more : forall s tb hist f s' ys, SInvB H B s tb.1 tb.2 hist f -> run_from H s (N.of_nat (length hist)) more = Ok (s', ys) ->
  num_nodes s' + total stale_nodes ys + size (st_stale s) = size (st_stale s') + total new_nodes ys + num_nodes s.
Proof.
  induction more as [|o more IH]; intros s tb hist f s' ys S E; cbn [run_from] in E; [injection E as <- <-; unfold total; cbn [flat_map map]; lia|].
  destruct (step H s (N.of_nat (length hist)) o) as [[s1 x]| |] eqn:E1; [|done..]. rewrite bind_Ok in E. pose proof (step_sizes B s tb hist f o s1 x S E1) as C.
  destruct (step_okB H B s tb hist f o S) as (s2 & x2 & E2 & _ & S1). rewrite E1 in E2. injection E2 as <- <-.
  destruct (run_from H s1 _ more) as [[s2 ys2]| |] eqn:E2; [|done..]. rewrite bind_Ok in E. injection E as <- <-.
  assert (El : (N.of_nat (length hist) + N.of_nat (length (op_sets o)))%N = N.of_nat (length (hist ++ op_sets o))) by (rewrite app_length; lia). rewrite El in E2.
  pose proof (IH s1 _ _ _ _ _ S1 E2) as C2. rewrite !total_cons. lia.
Qed.
(** C83: what the statistics of the batches say is what the store holds, at every point: the number of nodes, less those that wait to be
    purged, grows with every commit by new_nodes - stale_nodes, and no purge changes it. *)
Theorem C83_node_count n f c s more s' ys : in_use H n f c s -> run_from H s n more = Ok (s', ys) ->
  num_nodes s' + total stale_nodes ys + size (st_stale s) = size (st_stale s') + total new_nodes ys + num_nodes s.
Proof.
  intros U E. apply in_use_okay in U as (B & ops' & En & S & _). rewrite <- En in E. by eapply run_sizes.
Qed.
Theorem C83_node_count_empty ops st xs : run H ops = Ok (st, xs) -> num_nodes st + total stale_nodes xs = size (st_stale st) + total new_nodes xs.
Proof.
  intros R. pose proof (C83_node_count 0 0 _ _ ops st xs (in_use_empty H) R) as C. assert (E1 : num_nodes store_empty = 0) by reflexivity. assert (E2 : size (st_stale store_empty) = 0) by reflexivity. lia.
Qed.
(** nodes of versions that were there before a step were there before it *)
Lemma purge_old L : forall s s' nk nd, purge_loop s L = Ok s' -> st_nodes s' !! nk = Some nd -> st_nodes s !! nk = Some nd.
Proof.
  induction L as [|log L IH]; intros s s' nk nd E; cbn [purge_loop] in E; [apply Ok_inj in E; by subst|]. destruct (ensure_ _ _); [|done..]. rewrite bind_Ok in E.
  intros F. eapply IH in F; [|exact E]. cbn in F. by apply lookup_delete_Some in F as [_ F].
Qed.
Lemma step_old B s tb hist f o s1 x nk nd : SInvB H B s tb.1 tb.2 hist f -> step H s (N.of_nat (length hist)) o = Ok (s1, x) ->
  st_nodes s1 !! nk = Some nd -> (nk.1 < N.of_nat (length hist))%N -> st_nodes s !! nk = Some nd.
Proof.
  intros S E F L. destruct (step_okB H B s tb hist f o S) as (s2 & x2 & E2 & O & _). rewrite E in E2. injection E2 as <- <-.
  assert (C : forall b, batch_ok H (trn H tb.1 tb.2 (op_sets o)) (N.of_nat (length hist)) (op_sets o) b -> write_tree_update_batch s b = Ok s1 -> st_nodes s !! nk = Some nd).
  { intros b BO W. unfold write_tree_update_batch, write_node_batch in W. destruct (assert_ _); [|done..]. rewrite !bind_Ok in W.
    destruct (write_values (st_history s) (sorted_values (tb_values b))) as [h| |]; [|done..]. rewrite !bind_Ok in W. cbn [st_stale st_nodes st_history st_overwrite] in W.
    destruct (ensure_ _ _); [|done..]. rewrite bind_Ok in W. apply Ok_inj in W. subst s1. cbn [st_nodes] in F. apply lookup_union_Some_raw in F as [F|[_ F]]; [|done]. exfalso.
    apply (bo_nodes _ _ _ _ _ BO) in F as (y & Hy & [Ey _]). apply elem_of_list_lookup in Hy as [i Hi]. destruct (trn_mapsB H B _ _ _ _ _ _ S i y Hi) as [Ev _]. lia. }
  destruct o as [sets|sets|l]; cbn [step] in E.
  - destruct (put_value_sets H (store_reader s) sets (N.of_nat (length hist))) as [[roots b]| |]; [|done..]. rewrite bind_Ok in E. destruct (write_tree_update_batch s b) as [s2| |] eqn:W; [|done..]. rewrite bind_Ok in E. injection E as -> <-.
    destruct O as [_ O]. by eapply C.
  - destruct (put_value_sets_with_proof H (store_reader s) sets (N.of_nat (length hist))) as [[roots b]| |]; [|done..]. rewrite bind_Ok in E. destruct (write_tree_update_batch s b) as [s2| |] eqn:W; [|done..]. rewrite bind_Ok in E. injection E as -> <-.
    destruct O as (pfss & _ & _ & O). by eapply C.
  - destruct (purge_stale_nodes s l) as [s2| |] eqn:Ep; [|done..]. rewrite bind_Ok in E. injection E as -> <-. unfold purge_stale_nodes in Ep. by eapply purge_old.
Qed.
Lemma run_old B more : forall s tb hist f s' ys nk nd, SInvB H B s tb.1 tb.2 hist f -> run_from H s (N.of_nat (length hist)) more = Ok (s', ys) ->
  st_nodes s' !! nk = Some nd -> (nk.1 < N.of_nat (length hist))%N -> st_nodes s !! nk = Some nd.
Proof.
  induction more as [|o more IH]; intros s tb hist f s' ys nk nd S E F L; cbn [run_from] in E; [by injection E as <- <-|].
  destruct (step H s (N.of_nat (length hist)) o) as [[s1 x]| |] eqn:E1; [|done..]. rewrite bind_Ok in E. 
  destruct (step_okB H B s tb hist f o S) as (s2 & x2 & E2 & _ & S1). rewrite E1 in E2. injection E2 as <- <-.
  destruct (run_from H s1 _ more) as [[s2 ys2]| |] eqn:E2; [|done..]. rewrite bind_Ok in E. injection E as <- <-.
  assert (El : (N.of_nat (length hist) + N.of_nat (length (op_sets o)))%N = N.of_nat (length (hist ++ op_sets o))) by (rewrite app_length; lia). rewrite El in E2.
  eapply (step_old B); [exact S|exact E1| |done]. eapply IH; [exact S1|exact E2|done|rewrite app_length; lia].
Qed.
Lemma inv_lt B s tr b hist f nk nd : SInvB H B s tr b hist f -> st_nodes s !! nk = Some nd -> (nk.1 < N.of_nat (length hist))%N.
Proof.
  intros S F. apply (sb_nodes _ _ _ _ _ _ _ S) in F as [(x & Hx & _ & [E _]) _]. rewrite E, <- (sb_len _ _ _ _ _ _ _ S). apply (tr_lt H _ x); [by eapply sb_trok|done].
Qed.
Lemma size_le_list {A} `{Countable K} (m : gmap K A) (l : list K) : (forall k, is_Some (m !! k) -> k ∈ l) -> size m <= length l.
Proof.
  intros F. unfold size, map_size. rewrite <- (fmap_length fst (map_to_list m)). apply submseteq_length, NoDup_submseteq; [apply NoDup_fst_map_to_list|].
  intros k Hk. apply elem_of_list_fmap in Hk as ([k' x] & -> & Hk). apply F. apply elem_of_map_to_list in Hk. by exists x.
Qed.
Definition root_keys (n : version) (m : N) : list nodekey := map (fun i => ((n + N.of_nat i)%N, []) ) (seq 0 (N.to_nat m)).
(** C83: the number of roots grows by at most one per version *)
Theorem C83_roots n f c s more s' ys : in_use H n f c s -> run_from H s n more = Ok (s', ys) -> num_roots s' <= num_roots s + N.to_nat (num_versions more).
Proof.
  intros U E. apply in_use_okay in U as (B & ops' & En & S & _). rewrite <- En in E. destruct (run_from_okB H B more s _ _ _ S) as (s2 & ys2 & E2 & _ & S2). rewrite E in E2. injection E2 as <- <-.
  unfold num_roots at 1. transitivity (length ((map fst (map_to_list (filter (fun kn => kn.1.2 = []) (st_nodes s)))) ++ root_keys n (num_versions more))).
  - apply size_le_list. intros nk [nd [F G]%map_filter_lookup_Some]. cbn in G. apply elem_of_app. destruct (decide (nk.1 < N.of_nat (length (history ops')))%N) as [L|L].
    + left. apply elem_of_list_fmap. exists (nk, nd). split; [done|]. apply elem_of_map_to_list, map_filter_lookup_Some. split; [|done]. by eapply run_old.
    + right. pose proof (inv_lt _ _ _ _ _ _ _ _ S2 F) as L2. rewrite app_length in L2. unfold root_keys, num_versions. apply elem_of_list_fmap. exists (N.to_nat (nk.1 - n)). destruct nk as [w q]; cbn [fst snd] in *. subst q. split; [f_equal; lia|]. apply elem_of_seq. lia.
  - rewrite app_length, map_length. unfold root_keys. rewrite map_length, seq_length. done.
Qed.
Definition all_paths (M : gmap key value) : list (list nibble) := flat_map (fun k => map (fun i => take (S i) (key_nibbles k)) (seq 0 64)) (map fst (map_to_list M)).
Lemma all_paths_length M : length (all_paths M) = 64 * size M.
Proof. unfold all_paths. rewrite (flat_map_length_const _ 64); [|intros; by rewrite map_length, seq_length]. rewrite map_length. unfold size, map_size. lia. Qed.
Lemma lv_all_paths q (M : gmap key value) : lv [] q (H <$> M) -> q <> [] -> q ∈ all_paths M.
Proof.
  intros (_ & Ne & _) Nq. apply U_nonempty in Ne as (k & h & E & P). apply elem_of_list_In, in_flat_map. rewrite lookup_fmap in E. apply fmap_Some in E as (x & E & _). exists k. split.
  - apply elem_of_list_In, elem_of_list_fmap. exists (k, x). split; [done|]. by apply elem_of_map_to_list.
  - apply elem_of_list_In, elem_of_list_fmap. pose proof (prefix_len_64 _ _ P) as L. destruct P as [r P]. exists (length q - 1). rewrite P. destruct q as [|a q]; [done|]. cbn [length] in *. split.
    + replace (S (S (length q) - 1)) with (length (a :: q)) by (cbn; lia). by rewrite take_app.
    + apply elem_of_seq. lia.
Qed.
(** C83: after purging up to the latest version nothing waits to be purged, and the store holds at most one node for each nibble of each
    key present, besides roots. *)
Theorem C83_space n f c s l s' : in_use H n f c s -> (0 < n)%N -> (n - 1 <= l)%N -> purge_stale_nodes s l = Ok s' ->
  st_stale s' = ∅ /\ num_nodes s' <= 64 * size (c (n - 1)%N) + num_roots s.
Proof.
  intros U N0 L E. apply in_use_okay in U as (B & ops' & En & S & _ & El).
  assert (R : run_from H s (N.of_nat (length (history ops'))) [Purge l] = Ok (s', [OutPurge])) by (cbn [run_from step]; rewrite E, !bind_Ok; done).
  destruct (run_from_okB H B [Purge l] s _ _ _ S) as (s2 & ys2 & E2 & _ & S2). rewrite R in E2. injection E2 as <- <-. unfold history in S2 at 2. cbn [flat_map op_sets] in S2. rewrite !app_nil_r in S2.
  assert (St : st_stale s' = ∅).
  { apply elem_of_equiv_empty_L. intros [w nk] Hs. pose proof (sb_stale _ _ _ _ _ _ _ S2 _ _ Hs) as (x & Hx & -> & _). assert (Lx : (vs_v x < n)%N).
    { rewrite <- En, <- (sb_len _ _ _ _ _ _ _ S2). apply (tr_lt H _ x); [by eapply sb_trok|done]. }
    unfold purge_stale_nodes in E. destruct (purge_loop_stale _ _ _ E _ Hs) as [A Bn]. apply Bn, elem_of_elements, elem_of_filter. split; [cbn; lia|done]. }
  split; [done|]. unfold num_nodes. rewrite <- all_paths_length.
  destruct (xrun H tb0 ops') as [tr b] eqn:Ex. cbn [xrun fold_left xop fst snd] in S2. pose proof (sb_len _ _ _ _ _ _ _ S2) as Len. pose proof (sb_trok _ _ _ _ _ _ _ S2) as T.
  destruct (tr !! (length tr - 1)) as [y|] eqn:Ey; [|apply lookup_ge_None in Ey; lia]. pose proof (sb_map _ _ _ _ _ _ _ S2 _ _ Ey) as My. assert (Hy : y ∈ tr) by (by eapply elem_of_list_lookup_2). assert (Vy : vs_v y = N.of_nat (length tr - 1)) by (by apply T).
  assert (My' : a_map (vs_a y) = H <$> c (n - 1)%N). { rewrite My, <- El. unfold contents_at, last_contents. rewrite take_ge by lia. done. }
  transitivity (length (map (fun q => (a_ver (vs_a y) q, q)) (all_paths (c (n - 1)%N)) ++ map fst (map_to_list (filter (fun kn => kn.1.2 = []) (st_nodes s))))).
  - apply size_le_list. intros nk [nd F]. apply elem_of_app. destruct (decide (nk.2 = [])) as [Z|Z].
    + right. apply elem_of_list_fmap. exists (nk, nd). split; [done|]. apply elem_of_map_to_list, map_filter_lookup_Some. split; [|done]. unfold purge_stale_nodes in E. by eapply purge_old.
    + left. apply (sb_nodes _ _ _ _ _ _ _ S2) in F as [(x & Hx & _ & Nx) Hst]. pose proof (tr_lt H _ x T Hx) as Lx. destruct T as (_ & _ & _ & _ & _ & T6).
      destruct (T6 x y nk nd Hx Hy Nx Z) as [[I|(_ & I1 & I2)]|(z & Hz & Lz & Sz)]; [lia|subst nk; done| |].
      * apply elem_of_list_fmap. exists nk.2. split; [rewrite I2; by destruct nk|]. rewrite My' in I1. by apply lv_all_paths.
      * exfalso. assert (A : (vs_v z, nk) ∈ st_stale s') by (apply Hst; by exists z). rewrite St in A. by apply elem_of_empty in A.
  - rewrite app_length, !map_length. done.
Qed.
Theorem C83_space_empty ops st xs l st' : run H ops = Ok (st, xs) -> (0 < num_versions ops)%N -> (num_versions ops - 1 <= l)%N -> purge_stale_nodes st l = Ok st' ->
  num_nodes st' <= 64 * size (last_contents (history ops)) + N.to_nat (num_versions ops) /\ num_nodes st' + total stale_nodes xs = total new_nodes xs.
Proof.
  intros R N0 L E. pose proof (C83_roots 0 0 _ _ ops st xs (in_use_empty H) R) as C1. assert (E1 : num_roots store_empty = 0) by reflexivity.
  pose proof (in_use_more H _ _ _ _ _ _ _ (in_use_empty H) R) as U. assert (El : (0 + num_versions ops)%N = num_versions ops) by lia. rewrite El in U. destruct (C83_space _ _ _ _ _ _ U N0 L E) as [St Sz].
  assert (Ec : later 0 (fun _ => ∅) ops (num_versions ops - 1) = last_contents (history ops)). { unfold later. destruct (N.ltb_spec (num_versions ops - 1) 0); [lia|]. unfold last_contents. rewrite take_ge; [done|]. unfold num_versions in *. lia. }
  rewrite Ec in Sz. split; [lia|].
  assert (R' : run H (ops ++ [Purge l]) = Ok (st', xs ++ [OutPurge])). { unfold run in *. rewrite run_from_app, R. rewrite bind_Ok. cbn [run_from step]. rewrite E, !bind_Ok. done. }
  pose proof (C83_node_count_empty _ _ _ R') as C2. rewrite St in C2. assert (Z : size (∅ : gset (version * nodekey)) = 0) by apply size_empty. rewrite Z in C2.
  assert (T : forall g, total g (xs ++ [OutPurge]) = total g xs). { intros g. unfold total. rewrite flat_map_app. cbn [flat_map out_stats out_batch]. by rewrite !app_nil_r. } rewrite !T in C2. lia.
Qed.
End space.
(** the run of Demo.v: 10 nodes written, 5 retired, one of them not purged yet; after purging 5 nodes are left, 2 of them roots *)
Theorem C83_demo : exists st xs st', run toy demo = Ok (st, xs) /\ (num_nodes st, size (st_stale st), total new_nodes xs, total stale_nodes xs) = (6, 1, 10, 5) /\
  purge_stale_nodes st 4 = Ok st' /\ (num_nodes st', size (st_stale st'), num_roots st') = (5, 0, 2).
Proof.
  assert (E : match run toy demo with Ok (st, xs) => match purge_stale_nodes st 4 with Ok st' => bool_decide ((num_nodes st, size (st_stale st), total new_nodes xs, total stale_nodes xs) = (6, 1, 10, 5) /\ (num_nodes st', size (st_stale st'), num_roots st') = (5, 0, 2)) | _ => false end | _ => false end = true) by (vm_compute; reflexivity).
  destruct (run toy demo) as [[st xs]| |]; [|discriminate..]. destruct (purge_stale_nodes st 4) as [st'| |] eqn:P; [|discriminate..]. apply bool_decide_eq_true_1 in E as [E1 E2].
  exists st, xs, st'. split_and!; [reflexivity|exact E1|exact P|exact E2].
Qed.
