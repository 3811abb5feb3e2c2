(** Properties that are FALSE of the code: C23 (roots), C40, C41, C46, C47; each theorem exhibits the failure.
    H is any hash function. *)
From Verif Require Import Base Spec NodeType ProofDef TreeCache Tree Mock Driver KeyFacts SmtFacts ProofFacts NodeFacts Canon ReadFacts PutFacts VersionFacts ValueFacts StoreFacts PutTop InsertFacts DriverFacts ThmProof DriverFacts2 ThmStore ThmStore2.
From Coq Require Import Lia.
Local Opaque Spec.smt.

Section refute.
Context (H : list byte -> bytes32).

(** *** C23: a version without effect copies the root of its predecessor, and the copy is never marked stale:
    after a purge at the latest version the root nodes of older no-op versions are still in the store. *)
Theorem C23_purge_incomplete (k : key) (x : value) :
  exists st xs nk, run H [Commit [[(k, Some x)]]; Commit [[]]; Commit [[]]; Purge 2] = Ok (st, xs) /\
    is_Some (st_nodes st !! nk) /\ ~ reach (store_reader st) 2 nk.
Proof.
  set (ops := [Commit [[(k, Some x)]]; Commit [[]]; Commit [[]]; Purge 2]).
  destruct (C20_run_never_fails H ops) as (st & xs & R). exists st, xs, (1%N, []). split; [done|]. pose proof R as R'. apply run_inv in R as [_ S].
  assert (L2 : (floor ops <= 2)%N) by (vm_compute; done). assert (L2' : (2 < N.of_nat (length (history ops)))%N) by (vm_compute; done).
  destruct (read_ok H _ _ _ _ _ 2%N S L2 L2') as (z & Ez & Vz & _). split.
  - destruct (lookup_lt_is_Some_2 (xrun H tb0 ops).1 1) as [y Ey]; [rewrite (si_len _ _ _ _ _ _ S); vm_compute; lia|].
    pose proof (si_trok _ _ _ _ _ _ S) as T. pose proof T as (T1 & T2 & _). pose proof (T1 _ _ Ey) as Vy.
    exists (node_at H (a_map (vs_a y)) (a_ver (vs_a y)) []). apply (si_nodes _ _ _ _ _ _ S). split.
    + exists y. split; [by eapply elem_of_list_lookup_2|]. split; [done|]. split; [done|by left].
    + intros s (w & Hw & -> & Sw). exfalso. pose proof (T2 w _ Hw Sw) as [Lw _]. cbn in Lw. pose proof (tr_lt H _ w T Hw) as Lt.
      rewrite (si_len _ _ _ _ _ _ S) in Lt. assert (vs_v w = 2%N) as Ew by (cbn in Lt; lia).
      apply elem_of_list_lookup in Hw as (i & Hw). pose proof (T1 _ _ Hw) as Vi. assert (i = 2) as -> by lia. change (N.to_nat 2) with 2%nat in Ez. rewrite Hw in Ez. injection Ez as ->.
      assert (Ev : exists b, (xrun H tb0 ops).1 !! 2 = Some (vnext H 2 b [])) by (eexists; reflexivity).
      destruct Ev as (b & Ev). rewrite Hw in Ev. injection Ev as ->. destruct Sw as [Sw Sw']. by apply Sw'.
  - intros Hr. rewrite <- Vz in Hr. apply (reach_node_in H _ _ _ _ _ z _ S) in Hr; [|by eapply elem_of_list_lookup_2|lia].
    destruct Hr as [Hr|[Hr _]]; [|done]. injection Hr as Hr. lia.
Qed.

(** *** C40: on an empty store, a first version v > 0 whose value set has no effect (empty, or deletions only)
    leaves version v without a root: every read with proof fails. *)
Lemma put_set_noop rd v s : forall c, (forall w x, (w, x) ∈ s -> x = None) -> cache_node rd c (tc_root c) = None -> (tc_root c).2 = [] -> (tc_root c).1 <> v ->
  exists vals, put_set H rd v s c = Ok (mkCache (tc_root c) (tc_next c) (tc_nodes c) vals (tc_new_leaves c) (tc_stale c) (tc_stale_leaves c) (fz_nodes c) (fz_values c) (fz_stale c) (fz_stats c) (fz_roots c)).
Proof.
  induction s as [|[k x] s IH]; intros c Hs Hn Hp Hv; cbn [put_set].
  - exists (tc_values c). by destruct c.
  - assert (x = None) as -> by (apply (Hs k); by left). cbn [fmap option_fmap option_map].
    assert (E : put H rd k None v (cache_put_value c v k None) false = Ok (None, cache_put_value c v k None)).
    { unfold put. destruct (key_nibbles k) as [|n l] eqn:Ek.
      - pose proof (key_nibbles_length k) as L. by rewrite Ek in L.
      - cbn [insert_at tc_root cache_put_value]. change (cache_node rd (cache_put_value c v k None) (tc_root c)) with (cache_node rd c (tc_root c)). rewrite Hn.
        rewrite bool_decide_eq_true_2 by done. cbn [negb]. rewrite andb_false_r, !bind_Ok. done. }
    rewrite E, bind_Ok. destruct (IH (cache_put_value c v k None)) as (vals & Ev); [intros w x Hw; apply (Hs w); by right|done|done|done|].
    exists vals. exact Ev.
Qed.
Theorem C40_no_root_at_first_version (v : version) (s : value_set) : v <> 0%N -> (forall k x, (k, x) ∈ s -> x = None) ->
  exists r b st, put_value_set H (store_reader store_empty) s v = Ok (r, b) /\ write_tree_update_batch store_empty b = Ok st /\
    get_root_hash_option H (store_reader st) v = Ok None /\ forall k, get_with_proof H (store_reader st) k v = Err (EMissingRoot v).
Proof.
  intros Hv Hs. set (rd := store_reader store_empty).
  assert (Ec : cache_new rd v = mkCache (nk_root (v - 1)) v ∅ ∅ 0 ∅ 0 ∅ ∅ ∅ [] []).
  { unfold cache_new. by destruct (N.eqb_spec v 0). }
  destruct (put_set_noop rd v s (cache_new rd v)) as (vals & Ep); [done|by rewrite Ec|by rewrite Ec|rewrite Ec; cbn; lia|].
  rewrite Ec in Ep. cbn in Ep.
  assert (Hd : nk_root (v - 1) <> nk_root v) by (intros [= E]; lia).
  assert (Ef : exists stt, cache_freeze H rd (mkCache (nk_root (v - 1)) v ∅ vals 0 ∅ 0 ∅ ∅ ∅ [] []) =
    Ok (mkCache (nk_root (v - 1)) (v + 1) ∅ ∅ 0 ∅ 0 ({[ nk_root (v - 1) := Null ]} ∪ ∅) (vals ∪ ∅) (set_map (pair v) (∅ : gset nodekey) ∪ ∅) [stt] [SPARSE_MERKLE_PLACEHOLDER_HASH])).
  { eexists. unfold cache_freeze. cbn [tc_root]. unfold cache_node. cbn [tc_nodes fz_nodes tc_root]. rewrite ?lookup_empty.
    replace (rd_node rd (nk_root (v - 1))) with (@None node) by (symmetry; apply lookup_empty).
    unfold cache_put_node. cbn [tc_nodes].
 rewrite lookup_empty, !bind_Ok. cbn [tc_root tc_next tc_nodes tc_values tc_new_leaves tc_stale tc_stale_leaves fz_nodes fz_values fz_stale fz_stats fz_roots node_is_leaf].
    cbn [node_hash]. rewrite bind_Ok. rewrite (bool_decide_eq_false_2 (<[_:=_]> ∅ = ∅)) by apply insert_non_empty. rewrite andb_false_r, andb_false_l, bind_Ok.
    cbn [tc_root tc_next tc_nodes tc_values tc_new_leaves tc_stale tc_stale_leaves fz_nodes fz_values fz_stale fz_stats fz_roots]. reflexivity. }
  destruct Ef as (stt & Ef).
  assert (Hw : exists h, write_tree_update_batch store_empty (mkBatch ({[ nk_root (v - 1) := Null ]} ∪ ∅) (vals ∪ ∅) (set_map (pair v) (∅ : gset nodekey) ∪ ∅) [stt])
    = Ok (mkStore (({[ nk_root (v - 1) := Null ]} ∪ ∅) ∪ ∅) ((set_map (pair v) (∅ : gset nodekey) ∪ ∅) ∪ ∅) h false)).
  { destruct (write_values_ok (sorted_values (vals ∪ ∅)) ∅) as (h & Eh & _); [intros k; apply kl_sorted_values|].
    exists h. unfold write_tree_update_batch, write_node_batch. cbn [tb_nodes tb_values tb_stale store_empty st_overwrite st_nodes st_history st_stale].
    rewrite bool_decide_eq_true_2 by (rewrite dom_empty_L; apply intersection_empty_r_L). cbn [orb assert_]. rewrite bind_Ok, Eh, !bind_Ok.
    cbn [st_stale st_nodes st_history st_overwrite]. rewrite bool_decide_eq_true_2 by apply intersection_empty_r_L. cbn [ensure_]. by rewrite bind_Ok. }
  destruct Hw as (h & Hw).
  eexists _, _, _. split.
  { unfold put_value_set, put_value_sets. cbn [put_sets]. fold rd. rewrite Ec, Ep, bind_Ok, Ef, !bind_Ok. reflexivity. }
  split; [exact Hw|]. 
  assert (En : forall h', st_nodes (mkStore (({[ nk_root (v - 1) := Null ]} ∪ ∅) ∪ ∅) h' h false) !! nk_root v = None).
  { intros h'. cbn [st_nodes]. rewrite !map_union_empty. by rewrite lookup_singleton_ne. }
  split.
  - unfold get_root_hash_option, get_root_node_option. cbn [rd_node store_reader]. by rewrite En.
  - intros k. unfold get_with_proof. destruct (key_nibbles k) as [|n l]; cbn [get_with_proof_loop rd_node store_reader]; by rewrite En.
Qed.

(** The effect of one put on a missing root. *)
Definition one_batch (v : version) (k : key) (y : value) : tree_batch :=
  mkBatch {[ nk_root v := Leaf (LeafNode k (H y)) ]} {[ (v, k) := Some y ]} ∅ [mkStats 1 1 0 0].
Lemma smt_root_one k (y : value) : leaf_hash H (LeafNode k (H y)) = smt_root H {[ k := y ]}.
Proof. rewrite <- ms_nil, map_fmap_singleton. symmetry. apply ms_single. by rewrite under_nil. Qed.
Lemma put_one_missing rd v k (y : value) : v <> 0%N -> rd_node rd (nk_root (v - 1)) = None ->
  put_value_set H rd [(k, Some y)] v = Ok (smt_root H {[ k := y ]}, one_batch v k y).
Proof.
  intros Hv Hr. unfold put_value_set, put_value_sets. cbn [put_sets put_set fmap option_fmap option_map].
  assert (Ec : cache_new rd v = mkCache (nk_root (v - 1)) v ∅ ∅ 0 ∅ 0 ∅ ∅ ∅ [] []) by (unfold cache_new; by destruct (N.eqb_spec v 0)).
  rewrite Ec. unfold cache_put_value. cbn [tc_root tc_next tc_nodes tc_values tc_new_leaves tc_stale tc_stale_leaves fz_nodes fz_values fz_stale fz_stats fz_roots].
  set (c0 := mkCache _ _ _ _ _ _ _ _ _ _ _ _).
  assert (E0 : put H rd k (Some (value_hash H y)) v c0 false =
    Ok (None, mkCache (nk_root v) v {[ nk_root v := Leaf (LeafNode k (H y)) ]} {[ (v, k) := Some y ]} 1 ∅ 0 ∅ ∅ ∅ [] [])).
  { unfold put. destruct (key_nibbles k) as [|n l] eqn:Ek; [by pose proof (key_nibbles_length k) as L; rewrite Ek in L|].
    cbn [insert_at tc_root c0]. unfold cache_node. cbn [tc_nodes fz_nodes c0]. rewrite !lookup_empty, Hr.
    rewrite bool_decide_eq_true_2 by done. cbn [negb]. rewrite andb_false_r, bind_Ok. cbn [app]. rewrite <- Ek. unfold create_leaf_node. rewrite pack_key. cbn [unwrap]. rewrite bind_Ok.
    unfold cache_put_node. cbn [tc_nodes c0]. rewrite lookup_empty, !bind_Ok. done. }
  rewrite E0, !bind_Ok. 
  unfold cache_freeze. cbn [tc_root]. unfold cache_node. cbn [tc_nodes]. rewrite lookup_singleton, bind_Ok.
  cbn [node_hash]. rewrite bind_Ok. cbn [tc_nodes tc_next]. rewrite (bool_decide_eq_false_2 ({[_:=_]} = ∅)) by apply map_non_empty_singleton. rewrite andb_false_r, andb_false_l, bind_Ok.
  cbn [tc_root tc_next tc_nodes tc_values tc_new_leaves tc_stale tc_stale_leaves fz_nodes fz_values fz_stale fz_stats fz_roots].
  rewrite set_map_empty, !map_union_empty, union_empty_r_L, map_size_singleton, size_empty, smt_root_one. cbn [app]. rewrite ?bind_Ok. unfold cache_into. cbn [fz_roots fz_nodes fz_values fz_stale fz_stats]. by rewrite ?bind_Ok.
Qed.

Lemma hl_pad n : forall v k, hl v (replicate n []) k = [].
Proof. induction n as [|n IH]; intros v k; cbn; [done|apply IH]. Qed.
Lemma fold_pad n : forall m : gmap key value, fold_left apply_set (replicate n []) m = m.
Proof. induction n as [|n IH]; intros m; cbn; [done|apply IH]. Qed.
(** *** C41: committing above a gap silently starts from an empty tree: the new root covers only the new key,
    while [get] still returns the old ones. *)
Theorem C41_gap_loses_keys (ops : list op) st xs (w : version) (k1 : key) (y : value) : run H ops = Ok (st, xs) -> (num_versions ops < w)%N ->
  exists b st', put_value_set H (store_reader st) [(k1, Some y)] w = Ok (smt_root H {[ k1 := y ]}, b) /\ write_tree_update_batch st b = Ok st' /\
    get_root_hash H (store_reader st') w = Ok (smt_root H {[ k1 := y ]}) /\
    forall k0 x, k0 <> k1 -> last_contents (history ops) !! k0 = Some x ->
      get (store_reader st') k0 w = Ok (Some x) /\ exists p, get_with_proof H (store_reader st') k0 w = Ok (None, p).
Proof.
  intros R Hw. apply run_inv in R as [_ S]. exists (one_batch w k1 y).
  assert (Hn : forall u q, (num_versions ops <= u)%N -> st_nodes st !! (u, q) = None).
  { intros u q Hu. destruct (st_nodes st !! (u, q)) eqn:E; [|done]. exfalso. apply (si_nodes _ _ _ _ _ _ S) in E as [(x & Hx & Nx) _].
    pose proof (si_trok _ _ _ _ _ _ S) as T. pose proof (tr_lt H _ x T Hx) as Lt. rewrite (si_len _ _ _ _ _ _ S) in Lt.
    destruct Nx as [Nx _]. cbn in Nx. unfold num_versions in Hu. lia. }
  pose proof (si_hist _ _ _ _ _ _ S) as Hh.
  set (hist' := history ops ++ replicate (N.to_nat w - length (history ops)) []).
  assert (Lh : length hist' = N.to_nat w) by (unfold hist'; rewrite app_length, replicate_length; unfold num_versions in Hw; lia).
  assert (Hh' : hist_ok (st_history st) hist').
  { intros k. unfold hist'. rewrite hl_app, hl_pad, app_nil_r. apply Hh. }
  destruct (write_batch_values (st_history st) hist' [[(k1, Some y)]] Hh') as (h & Eh & Eh').
  rewrite Lh, N2Nat.id in Eh. assert (Eb : bvals w [[(k1, Some y)]] ∅ = {[ (w, k1) := Some y ]}) by (cbn; apply map_union_empty). rewrite Eb in Eh.
  exists (mkStore ({[ nk_root w := Leaf (LeafNode k1 (H y)) ]} ∪ st_nodes st) (∅ ∪ st_stale st) h false).
  split; [apply put_one_missing; [lia|cbn; apply Hn; lia]|].
  split.
  { unfold write_tree_update_batch, write_node_batch, one_batch. cbn [tb_nodes tb_values tb_stale]. rewrite (si_ov _ _ _ _ _ _ S).
    rewrite bool_decide_eq_true_2.
    2:{ rewrite dom_singleton_L. apply set_eq. intros x. rewrite elem_of_intersection, elem_of_singleton, elem_of_dom. split; [|set_solver].
        intros [-> [z Hz]]. unfold nk_root in Hz. rewrite (Hn w []) in Hz by lia. done. }
    cbn [orb assert_]. rewrite bind_Ok, Eh, !bind_Ok. cbn [st_stale st_nodes st_history st_overwrite]. rewrite bool_decide_eq_true_2 by set_solver. cbn [ensure_]. by rewrite bind_Ok. }
  assert (Er : ({[ nk_root w := Leaf (LeafNode k1 (H y)) ]} ∪ st_nodes st) !! nk_root w = Some (Leaf (LeafNode k1 (H y)))) by (apply lookup_union_Some_l, lookup_singleton).
  split.
  { unfold get_root_hash, get_root_node_option. cbn [store_reader rd_node st_nodes]. rewrite Er. cbn [ok_or]. rewrite bind_Ok. cbn [node_hash]. by rewrite smt_root_one. }
  intros k0 x Hk Hx. split.
  - unfold get. f_equal. cbn [store_reader rd_value]. erewrite store_value_hist by exact Eh'.
    unfold contents_at. rewrite take_ge by (rewrite app_length, Lh; cbn; lia). unfold hist'. unfold apply_sets. rewrite !fold_left_app, fold_pad.
    cbn. by rewrite lookup_insert_ne.
  - exists (SMProof (Some (LeafNode k1 (H y))) []). unfold get_with_proof.
    destruct (key_nibbles k0) as [|n l]; cbn [get_with_proof_loop store_reader rd_node st_nodes]; rewrite Er; cbn [ok_or]; rewrite bind_Ok; cbn [ln_key]; (rewrite decide_False by congruence); by rewrite bind_Ok.
Qed.

(** *** C46: append_value_set marks the root key it rewrites as stale at the same version; purging at that
    version deletes the live root.  Store with overwriting allowed, holding one key at version 0, whose value
    is then replaced. *)
Ltac cc := cbn [tc_root tc_next tc_nodes tc_values tc_new_leaves tc_stale tc_stale_leaves fz_nodes fz_values fz_stale fz_stats fz_roots st_nodes st_stale st_history st_overwrite tb_nodes tb_values tb_stale tb_stats].
Lemma put_empty_root rd k vh v c n : tc_root c = nk_root v -> tc_nodes c = {[ nk_root v := Null ]} -> tc_new_leaves c = n ->
  put H rd k (Some vh) v c false = Ok (None, mkCache (nk_root v) (tc_next c) {[ nk_root v := Leaf (LeafNode k vh) ]} (tc_values c) (S n) (tc_stale c) (tc_stale_leaves c) (fz_nodes c) (fz_values c) (fz_stale c) (fz_stats c) (fz_roots c)).
Proof.
  intros Er En El. unfold put. destruct (key_nibbles k) as [|nb l] eqn:Ek; [by pose proof (key_nibbles_length k) as L; rewrite Ek in L|].
  cbn [insert_at]. unfold cache_node. rewrite Er, En, lookup_singleton. rewrite bool_decide_eq_true_2 by done. cbn [negb nk_version nk_root fst]. rewrite N.eqb_refl. cbn [andb].
  unfold cache_delete_node. rewrite En, lookup_singleton, !bind_Ok. cbn [app]. rewrite <- Ek. unfold create_leaf_node. rewrite pack_key. cbn [unwrap]. rewrite bind_Ok.
  unfold cache_put_node. cc. rewrite delete_singleton, lookup_empty, !bind_Ok. unfold cache_set_root. cc. by rewrite El.
Qed.
Lemma run_one k (x : value) : exists st xs, run H [Commit [[(k, Some x)]]] = Ok (st, xs) /\ st_nodes st = {[ nk_root 0 := Leaf (LeafNode k (H x)) ]} /\
  st_stale st = ∅ /\ st_history st = {[ k := [(0%N, Some x)] ]}.
Proof.
  unfold run. cbn [run_from step]. unfold put_value_sets. cbn [put_sets put_set fmap option_fmap option_map].
  assert (Ec : cache_new (store_reader store_empty) 0 = mkCache (nk_root 0) 0 {[ nk_root 0 := Null ]} ∅ 0 ∅ 0 ∅ ∅ ∅ [] []) by reflexivity.
  rewrite Ec. unfold cache_put_value. cc. rewrite (put_empty_root _ k (value_hash H x) 0 _ 0) by done. rewrite !bind_Ok. cc.
  unfold cache_freeze. cc. unfold cache_node. cc. rewrite lookup_singleton, bind_Ok. cbn [node_hash]. rewrite bind_Ok. cc. cbn [N.ltb N.compare andb]. rewrite !bind_Ok.
  cc. unfold cache_into. cc. rewrite !map_union_empty, set_map_empty, union_empty_r_L.
  unfold write_tree_update_batch, write_node_batch. unfold store_empty. cc.
  rewrite bool_decide_eq_true_2 by set_solver. cbn [orb assert_].
 rewrite bind_Ok.
  assert (Es : sorted_values ({[ (0%N, k) := Some x ]}) = [((0%N, k), Some x)]) by (unfold sorted_values; by rewrite map_to_list_singleton).
  change (<[(0%N, k) := Some x]> ∅) with ({[ (0%N, k) := Some x ]} : gmap (version * key) (option value)). rewrite Es. cbn [write_values]. unfold put_value_hist. rewrite lookup_empty, !bind_Ok. cc.
  rewrite bool_decide_eq_true_2 by set_solver. cbn [ensure_]. rewrite !bind_Ok. cbn [length op_sets run_from]. rewrite ?bind_Ok. eexists _, _. split; [done|]. cc. rewrite map_union_empty. split_and!; [done|set_solver|done].
Qed.
Theorem C46_append_then_purge_loses_root (k : key) (x y : value) :
  exists st0 xs r b st1 st2, run H [Commit [[(k, Some x)]]] = Ok (st0, xs) /\
    append_value_set H (store_reader st0) [(k, Some y)] 0 = Ok (r, b) /\
    write_tree_update_batch (mkStore (st_nodes st0) (st_stale st0) (st_history st0) true) b = Ok st1 /\
    r = smt_root H {[ k := y ]} /\ get_root_hash H (store_reader st1) 0 = Ok r /\
    purge_stale_nodes st1 0 = Ok st2 /\ get_root_hash_option H (store_reader st2) 0 = Ok None.
Proof.
  destruct (run_one k x) as (st0 & xs & E0 & En & Es & Eh). exists st0, xs.
  assert (Ea : exists stt, append_value_set H (store_reader st0) [(k, Some y)] 0 = Ok (smt_root H {[ k := y ]}, mkBatch {[ nk_root 0 := Leaf (LeafNode k (H y)) ]} {[ (0%N, k) := Some y ]} {[ (0%N, nk_root 0) ]} [stt])).
  { unfold append_value_set, cache_new_overwrite. cbn [store_reader rd_rightmost]. unfold store_rightmost. rewrite En, map_to_list_singleton.
    cbn [rightmost_loop nk_version fst nk_root]. rewrite N.eqb_refl. cbn [ensure_]. rewrite !bind_Ok. cbn [put_set fmap option_fmap option_map]. unfold cache_put_value. cc.
    set (c0 := mkCache _ _ _ _ _ _ _ _ _ _ _ _).
    assert (Ei : insert_at H (store_reader st0) (key_nibbles k) [] (nk_root 0) 0 (Some (value_hash H y)) c0 false =
       insert_at_leaf_node H (nk_root 0) (LeafNode k (H x)) 0 [] (key_nibbles k) (Some (value_hash H y)) c0 false).
    { destruct (key_nibbles k) as [|nb l]; cbn [insert_at]; unfold cache_node; cbn [c0]; cc; rewrite ?lookup_empty; cbn [store_reader rd_node]; by rewrite En, lookup_singleton. }
    unfold put. change (tc_root c0) with (nk_root 0). rewrite Ei. clear Ei. unfold insert_at_leaf_node. cbn [ln_key length lcp app drop Nat.eqb assert_]. rewrite bind_Ok.
    rewrite (lcp_prefix (key_nibbles k) (key_nibbles k)) by done. rewrite !drop_0, firstn_all, !drop_all. 
 cbn [assert_]. rewrite bind_Ok, app_nil_r.
    unfold cache_delete_node. subst c0. cc. rewrite lookup_empty. rewrite bool_decide_eq_false_2 by set_solver. cbn [negb assert_]. rewrite !bind_Ok.
    unfold create_leaf_node. rewrite pack_key. cbn [unwrap]. rewrite bind_Ok. unfold cache_put_node. cc. change (nk_set_version (nk_root 0) 0) with (nk_root 0). rewrite lookup_empty, !bind_Ok.
    unfold cache_set_root. cc. unfold cache_freeze. cc. unfold cache_node. cc. rewrite lookup_insert, bind_Ok. cbn [node_hash]. rewrite bind_Ok. cc. cbn [N.ltb N.compare andb]. rewrite !bind_Ok.
    unfold cache_into. cc. cbn [app]. rewrite smt_root_one, !map_union_empty, !union_empty_r_L, set_map_singleton_L. eexists. reflexivity. }
  destruct Ea as (stt & Ea).
  assert (Ew : write_tree_update_batch (mkStore (st_nodes st0) (st_stale st0) (st_history st0) true) (mkBatch {[ nk_root 0 := Leaf (LeafNode k (H y)) ]} {[ (0%N, k) := Some y ]} {[ (0%N, nk_root 0) ]} [stt])
     = Ok (mkStore {[ nk_root 0 := Leaf (LeafNode k (H y)) ]} {[ (0%N, nk_root 0) ]} {[ k := [(0%N, Some y)] ]} true)).
  { unfold write_tree_update_batch, write_node_batch. cc. cbn [orb assert_]. rewrite bind_Ok, Eh, Es, En.
    assert (Ev : sorted_values ({[ (0%N, k) := Some y ]}) = [((0%N, k), Some y)]) by (unfold sorted_values; by rewrite map_to_list_singleton).
    rewrite Ev. cbn [write_values]. unfold put_value_hist. rewrite lookup_singleton. cbn [rev app N.compare]. rewrite !bind_Ok. cc.
    rewrite bool_decide_eq_true_2 by set_solver. cbn [ensure_]. rewrite bind_Ok, union_empty_r_L. rewrite <- !insert_union_singleton_l. idtac.
 unfold singletonM, map_singleton. rewrite ?insert_insert. done. }
  exists (smt_root H {[ k := y ]}). eexists _, _, (mkStore ∅ ∅ _ _). split; [done|]. split; [exact Ea|]. split; [exact Ew|]. split; [done|]. split.
  { unfold get_root_hash, get_root_node_option. cbn [store_reader rd_node]. cc. rewrite lookup_singleton. cbn [ok_or]. rewrite bind_Ok. cbn [node_hash]. by rewrite smt_root_one. }
  split.
  { unfold purge_stale_nodes. cc. rewrite (filter_singleton_L (fun log : version * nodekey => (log.1 <= 0)%N)) by (cbn; lia). rewrite elements_singleton. cbn [purge_loop snd]. cc. rewrite lookup_singleton. cbn [ensure_]. rewrite bind_Ok, delete_singleton, difference_diag_L. done. }
  unfold get_root_hash_option, get_root_node_option. cbn [store_reader rd_node]. cc. done.
Qed.

(** *** C47: a version-0 commit without effect over a pre-genesis state leaves version 0 without a root, and
    version 1 starts from an empty tree. *)
Theorem C47_pre_genesis_lost (k0 k1 : key) (x y : value) :
  let st0 := mkStore {[ nk_root PRE_GENESIS_VERSION := Leaf (LeafNode k0 (H x)) ]} ∅ ∅ false in
  exists b st1 b1, put_value_set H (store_reader st0) [] 0 = Ok (smt_root H {[ k0 := x ]}, b) /\ write_tree_update_batch st0 b = Ok st1 /\
    get_root_hash H (store_reader st1) PRE_GENESIS_VERSION = Ok (smt_root H {[ k0 := x ]}) /\
    get_root_hash_option H (store_reader st1) 0 = Ok None /\
    put_value_set H (store_reader st1) [(k1, Some y)] 1 = Ok (smt_root H {[ k1 := y ]}, b1).
Proof.
  intros st0. assert (Ec : cache_new (store_reader st0) 0 = mkCache (nk_root PRE_GENESIS_VERSION) 0 ∅ ∅ 0 ∅ 0 ∅ ∅ ∅ [] []).
  { unfold cache_new. cbn [N.eqb store_reader rd_node]. subst st0. cc. by rewrite lookup_singleton. }
  exists (mkBatch ∅ ∅ ∅ [mkStats 0 0 0 0]), st0, (one_batch 1 k1 y).
  split.
  { unfold put_value_set, put_value_sets. cbn [put_sets put_set]. rewrite Ec, bind_Ok. unfold cache_freeze. cc. unfold cache_node. cc. rewrite !lookup_empty.
    cbn [store_reader rd_node]. unfold st0. cc. rewrite lookup_singleton, bind_Ok. cbn [node_hash]. rewrite bind_Ok. cc. cbn [N.ltb N.compare andb]. rewrite !bind_Ok.
    unfold cache_into. cc. cbn [app]. rewrite ?bind_Ok, smt_root_one. rewrite !map_union_empty, set_map_empty, union_empty_r_L. done. }
  assert (En : st_nodes st0 !! nk_root 0 = None) by (unfold st0; cc; by rewrite lookup_singleton_ne).
  split.
  { unfold write_tree_update_batch, write_node_batch. cc. rewrite bool_decide_eq_true_2 by set_solver. rewrite orb_true_r. cbn [assert_]. rewrite bind_Ok.
    assert (Es : sorted_values ∅ = []) by (unfold sorted_values; by rewrite map_to_list_empty). rewrite Es. cbn [write_values]. rewrite !bind_Ok. cc.
    rewrite bool_decide_eq_true_2 by set_solver. cbn [ensure_]. rewrite bind_Ok, union_empty_l_L, map_empty_union. done. }
  split. { unfold get_root_hash, get_root_node_option. cbn [store_reader rd_node]. unfold st0. cc. rewrite lookup_singleton. cbn [ok_or]. rewrite bind_Ok. cbn [node_hash]. by rewrite smt_root_one. }
  split. { unfold get_root_hash_option, get_root_node_option. cbn [store_reader rd_node]. by rewrite En. }
  by apply put_one_missing.
Qed.
End refute.
