(** C84: putting leaves into a store directly (MockTreeStore::put_leaf), and the preimages it keeps. *)
From Coq Require Import Strings.String.
From Verif Require BatchTop.
From Verif Require Import Base Spec NodeType ProofDef TreeCache Tree Mock MockExtra Driver KeyFacts SmtFacts ProofFacts PutFacts ThmProof ThmFirst ThmOrigin Demo Toy.
From Coq Require Import Lia.
Local Opaque Spec.smt root_inputs ms_in.
(** *** Specification *)
(** the newest version at which something is recorded for the key *)
Definition newest (s : store) (k : key) : option version := match st_history s !! k with Some l => fst <$> last l | None => None end.
(** recording the preimages of keys one after the other *)
Definition record_all (H : list byte -> bytes32) (ps : list (list byte)) (p : preimages) : preimages := fold_left (fun p x => put_key_preimage p (H x) x) ps p.

Section leaf.
Context (H : list byte -> bytes32).
Lemma first_leaf v k x : put_value_sets H (store_reader store_empty) [[(k, Some x)]] v =
  Ok ([leaf_hash H (LeafNode k (H x))], mkBatch {[ (v, []) := Leaf (LeafNode k (H x)) ]} {[ (v, k) := Some x ]} ∅ [mkStats 1 1 0 0]).
Proof.
  assert (Rd : forall nk, rd_node (store_reader store_empty) nk = None) by (intros; apply lookup_empty).
  assert (C : put_sets H (store_reader store_empty) v [[(k, Some x)]] (cache_new (store_reader store_empty) v) = 
    Ok (mkCache (nk_root v) (v + 1) ∅ ∅ 0 ∅ 0 {[ (v, []) := Leaf (LeafNode k (H x)) ]} {[ (v, k) := Some x ]} ∅ [mkStats 1 1 0 0] [leaf_hash H (LeafNode k (H x))])).
  { cbn [put_sets put_set]. unfold put. 
    assert (I : forall b, insert_at H (store_reader store_empty) (key_nibbles k) [] (tc_root (cache_put_value (cache_new (store_reader store_empty) v) v k (Some x))) v (value_hash H <$> Some x) (cache_put_value (cache_new (store_reader store_empty) v) v k (Some x)) b
       = Ok (Updated (nk_root v) (Leaf (LeafNode k (H x))), with_pf b (SMProof None []), mkCache (if (v =? 0)%N then nk_root 0 else nk_root (v - 1)) v {[ nk_root v := Leaf (LeafNode k (H x)) ]} {[ (v, k) := Some x ]} 1 ∅ 0 ∅ ∅ ∅ [] [])).
    { intros b. assert (Cr : forall c, tc_nodes c = ∅ -> create_leaf_node (nk_root v) ([] ++ key_nibbles k) (H x) c = Ok (nk_root v, Leaf (LeafNode k (H x)), mkCache (tc_root c) (tc_next c) {[ nk_root v := Leaf (LeafNode k (H x)) ]} (tc_values c) (S (tc_new_leaves c)) (tc_stale c) (tc_stale_leaves c) (fz_nodes c) (fz_values c) (fz_stale c) (fz_stats c) (fz_roots c))).
      { intros c Ec. unfold create_leaf_node. cbn [app]. rewrite pack_key. cbn [unwrap]. rewrite bind_Ok. unfold cache_put_node. rewrite Ec, lookup_empty, bind_Ok. done. }
      revert Cr. generalize (key_nibbles k). intros l Cr. destruct l as [|n l]; cbn [insert_at]; unfold cache_new; rewrite Rd; destruct (N.eqb_spec v 0) as [->|Nv];
        unfold cache_node, cache_put_value; cbn [tc_root tc_nodes tc_next tc_values tc_new_leaves tc_stale tc_stale_leaves fz_nodes fz_values fz_stale fz_stats fz_roots];
        rewrite ?lookup_singleton, ?lookup_empty, ?Rd; cbn [nk_path nk_root snd fst]; rewrite bool_decide_eq_true_2 by done; cbn [negb].
      1,3: change ((nk_version (nk_root 0) =? 0)%N && true) with true; cbn [andb]; unfold cache_delete_node; cbn [tc_nodes]; rewrite lookup_singleton, !bind_Ok; cbn [tc_root tc_nodes tc_next tc_values tc_new_leaves tc_stale tc_stale_leaves fz_nodes fz_values fz_stale fz_stats fz_roots];
        rewrite delete_singleton; unfold value_hash; cbn [fmap option_fmap option_map]; rewrite Cr by done; rewrite bind_Ok; done.
      all: rewrite andb_false_r, bind_Ok; unfold value_hash; cbn [fmap option_fmap option_map]; rewrite Cr by done; rewrite bind_Ok; done. }
    rewrite I, bind_Ok. cbn [cache_set_root]. rewrite !bind_Ok. unfold cache_freeze, cache_set_root, cache_node. cbn [tc_root tc_nodes tc_next tc_values tc_new_leaves tc_stale tc_stale_leaves fz_nodes fz_values fz_stale fz_stats fz_roots].
    rewrite lookup_singleton, !bind_Ok. cbn [node_hash]. rewrite bind_Ok. cbn [tc_root tc_nodes tc_next tc_values tc_new_leaves tc_stale tc_stale_leaves fz_nodes fz_values fz_stale fz_stats fz_roots].
    rewrite (bool_decide_eq_false_2 ({[ nk_root v := Leaf (LeafNode k (H x)) ]} = ∅)) by (apply map_non_empty_singleton). rewrite andb_false_r. cbn [andb]. rewrite !bind_Ok. cbn [put_sets tc_root tc_nodes tc_next tc_values tc_new_leaves tc_stale tc_stale_leaves fz_nodes fz_values fz_stale fz_stats fz_roots].
    rewrite set_map_empty, map_size_singleton, size_empty. cbn [app]. rewrite !map_union_empty, union_empty_r_L. done. }
  unfold put_value_sets. rewrite C, bind_Ok. done.
Qed.
Lemma first_leaf_step v k x : step H store_empty v (Commit [[(k, Some x)]]) =
  Ok (mkStore {[ (v, []) := Leaf (LeafNode k (H x)) ]} ∅ {[ k := [(v, Some x)] ]} false, OutCommit [leaf_hash H (LeafNode k (H x))] (mkBatch {[ (v, []) := Leaf (LeafNode k (H x)) ]} {[ (v, k) := Some x ]} ∅ [mkStats 1 1 0 0])).
Proof.
  cbn [step]. rewrite first_leaf, bind_Ok. unfold write_tree_update_batch, write_node_batch. cbn [tb_nodes tb_values tb_stale].
  assert (Sv : sorted_values {[ (v, k) := Some x ]} = [((v, k), Some x)]). { unfold sorted_values. rewrite map_to_list_singleton. done. }
  rewrite Sv. cbn [write_values]. unfold put_value_hist. unfold store_empty. cbn [st_history st_nodes st_stale st_overwrite]. rewrite lookup_empty. rewrite (bool_decide_eq_true_2 (dom _ ∩ dom _ = _)) by (rewrite dom_empty_L; set_solver). cbn [orb assert_]. rewrite !bind_Ok. cbn [st_history st_nodes st_stale st_overwrite].
  rewrite bool_decide_eq_true_2 by set_solver. cbn [ensure_]. rewrite !bind_Ok. rewrite map_union_empty, union_empty_r_L. done.
Qed.

(** C84: a node that is there is not touched *)
Theorem C84_put_leaf_exists s nk l x : is_Some (st_nodes s !! nk) -> (put_leaf s nk l x).1 = s /\ exists e, (put_leaf s nk l x).2 = Err e.
Proof. intros [nd E]. unfold put_leaf. rewrite E. split; [done|]. by eexists. Qed.
Lemma newest_rev s k l : st_history s !! k = Some l -> newest s k = match rev l with (lv, _) :: _ => Some lv | [] => None end.
Proof.
  intros E. unfold newest. rewrite E. destruct (rev l) as [|[lv y] r] eqn:Er.
  - assert (l = []) as ->; [|done]. rewrite <- (rev_involutive l), Er. done.
  - assert (l = rev r ++ [(lv, y)]) as ->; [by rewrite <- (rev_involutive l), Er|]. by rewrite last_snoc.
Qed.
(** C84: otherwise it succeeds unless something newer is recorded for the key; then the leaf and its value can be read (the value from the
    version of the leaf on), one node is added, and nothing else changes. *)
Theorem C84_put_leaf s nk l x : st_nodes s !! nk = None -> (forall w, newest s (ln_key l) = Some w -> (w <= nk.1)%N) ->
  exists s', put_leaf s nk l x = (s', Ok tt) /\ rd_node (store_reader s') nk = Some (Leaf l) /\ (forall nk', nk' <> nk -> rd_node (store_reader s') nk' = rd_node (store_reader s) nk') /\
    num_nodes s' = S (num_nodes s) /\ st_stale s' = st_stale s /\ st_overwrite s' = st_overwrite s /\
    (forall w, (nk.1 <= w)%N -> get (store_reader s') (ln_key l) w = Ok (Some x)) /\ (forall w, (w < nk.1)%N -> get (store_reader s') (ln_key l) w = get (store_reader s) (ln_key l) w) /\
    (forall k w, k <> ln_key l -> get (store_reader s') k w = get (store_reader s) k w).
Proof.
  intros En Nw. unfold put_leaf. rewrite En. cbn [st_history st_nodes st_stale st_overwrite].
  assert (Old : forall w k, get (store_reader s) k w = Ok (match st_history s !! k with Some h => find_value w (rev h) | None => None end)) by done.
  assert (P : exists h', put_value_hist (st_history s) nk.1 (ln_key l) (Some x) = Ok h' /\ (forall k, k <> ln_key l -> h' !! k = st_history s !! k) /\ 
     exists r, h' !! ln_key l = Some (rev ((nk.1, Some x) :: r)) /\ forall w, (w < nk.1)%N -> find_value w r = match st_history s !! ln_key l with Some h => find_value w (rev h) | None => None end).
  { unfold put_value_hist. destruct (st_history s !! ln_key l) as [h|] eqn:Eh.
    - pose proof (newest_rev _ _ _ Eh) as Nr. destruct (rev h) as [|[lv y] r] eqn:Er.
      + eexists. split; [done|]. split; [intros k Nk; by rewrite lookup_insert_ne|]. exists []. rewrite lookup_insert. split; [|done]. f_equal. rewrite <- (rev_involutive h), Er. done.
      + pose proof (Nw _ Nr) as L. assert (Eh' : h = rev r ++ [(lv, y)]) by (by rewrite <- (rev_involutive h), Er). destruct (N.compare_spec nk.1 lv) as [->|C|C]; [|lia|].
        * eexists. split; [done|]. split; [intros k Nk; by rewrite lookup_insert_ne|]. exists r. rewrite lookup_insert. split; [done|]. intros w Lw. cbn [find_value]. destruct (N.leb_spec lv w); [lia|done].
        * eexists. split; [done|]. split; [intros k Nk; by rewrite lookup_insert_ne|]. exists ((lv, y) :: r). rewrite lookup_insert. split; [|done]. f_equal. rewrite Eh'. done.
    - eexists. split; [done|]. split; [intros k Nk; by rewrite lookup_insert_ne|]. exists []. rewrite lookup_insert. split; done. }
  destruct P as (h' & -> & Ho & r & Hk & Hb). eexists. split; [done|]. unfold store_reader, store_value, num_nodes, get. cbn [rd_node rd_value st_nodes st_history st_stale st_overwrite].
  split_and!; [apply lookup_insert|intros nk' Ne; by rewrite lookup_insert_ne|by rewrite map_size_insert_None|done..| | |].
  - intros w L. rewrite Hk, rev_involutive. cbn [find_value]. destruct (N.leb_spec nk.1 w); [done|lia].
  - intros w L. rewrite Hk, rev_involutive. cbn [find_value]. destruct (N.leb_spec nk.1 w); [lia|]. f_equal. by apply Hb.
  - intros k w Ne. by rewrite Ho.
Qed.
(** C84 (a defect of the code, as it is): when something newer is recorded for the key, put_leaf reports an error, and still leaves the node
    in the store, without a value. *)
Theorem C84_put_leaf_half_done s nk l x w : st_nodes s !! nk = None -> newest s (ln_key l) = Some w -> (nk.1 < w)%N ->
  exists s' e, put_leaf s nk l x = (s', Err e) /\ rd_node (store_reader s') nk = Some (Leaf l) /\ num_nodes s' = S (num_nodes s) /\
    forall k v, get (store_reader s') k v = get (store_reader s) k v.
Proof.
  intros En Nw L. unfold put_leaf. rewrite En. cbn [st_history st_nodes st_stale st_overwrite].
  assert (P : exists e, put_value_hist (st_history s) nk.1 (ln_key l) (Some x) = Err e).
  { unfold put_value_hist. destruct (st_history s !! ln_key l) as [h|] eqn:Eh; [|unfold newest in Nw; by rewrite Eh in Nw]. rewrite (newest_rev _ _ _ Eh) in Nw.
    destruct (rev h) as [|[lv y] r]; [done|]. injection Nw as ->. destruct (N.compare_spec nk.1 w) as [?|C|C]; [lia| |lia]. by eexists. }
  destruct P as [e ->]. eexists _, e. split; [done|]. unfold num_nodes, store_reader. cbn [rd_node st_nodes]. split_and!; [apply lookup_insert|by rewrite map_size_insert_None|done].
Qed.
(** C84: a leaf put at the root of a version of an empty store makes that version the map with this one entry: the store is the one that committing the entry
    gives, so that all that is proved of stores in use holds of it (C82). *)
Theorem C84_first_leaf v k x : exists s, put_leaf store_empty (v, []) (LeafNode k (H x)) x = (s, Ok tt) /\ 
  (exists y, step H store_empty v (Commit [[(k, Some x)]]) = Ok (s, y)) /\
  exists c, c v = {[ k := x ]} /\ in_use H (v + 1) v c s.
Proof.
  eexists. split; [unfold put_leaf, store_empty; cbn [st_nodes st_history]; rewrite lookup_empty; unfold put_value_hist; cbn [fst ln_key st_nodes st_stale st_history st_overwrite]; rewrite lookup_empty; reflexivity|].
  split; [eexists; apply first_leaf_step|]. exists (fun w => contents_at [[(k, Some x)]] (w - v)). split.
  - rewrite N.sub_diag. unfold contents_at. change (N.to_nat 0 + 1) with 1. cbn [take apply_sets fold_left apply_set]. done.
  - refine (in_use_first H v (Commit [[(k, Some x)]]) [(k, Some x)] [] _ _ eq_refl _ (first_leaf_step v k x)). exists k, x. by left.
Qed.

(** C84: preimages.  What was recorded last is found; other keys are not affected; and once all preimages of some keys have been recorded each of the keys has a preimage. *)
Theorem C84_preimages (p : preimages) k x : get_preimage (put_key_preimage p k x) k = Ok (Some x) /\ (forall k', k' <> k -> get_preimage (put_key_preimage p k x) k' = get_preimage p k').
Proof. unfold get_preimage, put_key_preimage. split; [f_equal; apply (lookup_insert p)|]. intros k' N. f_equal. by apply (lookup_insert_ne p). Qed.
Theorem C84_record_all ps p : (forall k y, get_preimage p k = Ok (Some y) -> H y = k) -> 
  (forall k y, get_preimage (record_all H ps p) k = Ok (Some y) -> H y = k) /\ forall x, x ∈ ps -> exists y, get_preimage (record_all H ps p) (H x) = Ok (Some y) /\ H y = H x.
Proof.
  revert p. induction ps as [|a ps IH]; intros p Hp; cbn [record_all fold_left]; [split; [done|]; by intros x ?%elem_of_nil|].
  assert (Hp' : forall k y, get_preimage (put_key_preimage p (H a) a) k = Ok (Some y) -> H y = k).
  { intros k y. destruct (C84_preimages p (H a) a) as [P1 P2]. destruct (decide (k = H a)) as [->|N]; [rewrite P1; by intros [= <-]|rewrite P2 by done; apply Hp]. }
  destruct (IH _ Hp') as [A B]. split; [exact A|]. intros x [->|Hx]%elem_of_cons; [|by apply B].
  assert (K : forall qs q k, is_Some (q !! k) -> is_Some (record_all H qs q !! k)).
  { induction qs as [|b qs IH2]; intros q k S; [done|]. apply IH2. unfold put_key_preimage. destruct (decide (k = H b)) as [->|N]; [exists b; apply (lookup_insert q)|destruct S as [z S]; exists z; by rewrite (lookup_insert_ne q)]. }
  destruct (K ps (put_key_preimage p (H a) a) (H a)) as [y Ey]; [exists a; apply (lookup_insert p)|].
  exists y. assert (G : get_preimage (record_all H ps (put_key_preimage p (H a) a)) (H a) = Ok (Some y)) by (unfold get_preimage; by rewrite Ey). split; [exact G|]. by apply A.
Qed.
End leaf.
(** a store with a leaf at version 3: another leaf of the same key at a lower version is half done, at a higher one it is done *)
Theorem C84_demo : exists s, (put_leaf store_empty (3%N, []) (LeafNode K00 (toy va)) va) = (s, Ok tt) /\ newest s K00 = Some 3%N /\
  (exists s', put_leaf s (5%N, []) (LeafNode K00 (toy vb)) vb = (s', Ok tt) /\ num_nodes s' = 2) /\ exists s' e, put_leaf s (1%N, []) (LeafNode K00 (toy vb)) vb = (s', Err e) /\ num_nodes s' = 2.
Proof.
  destruct (C84_first_leaf toy 3 K00 va) as (s & E & _). exists s.
  assert (N : newest s K00 = Some 3%N /\ num_nodes s = 1 /\ st_nodes s !! (5%N, []) = None /\ st_nodes s !! (1%N, []) = None).
  { assert (E' : s = (put_leaf store_empty (3%N, []) (LeafNode K00 (toy va)) va).1) by (rewrite E; reflexivity). clear E. subst s. split_and!; vm_compute; reflexivity. }
  destruct N as (N1 & N2 & N3 & N4). split; [exact E|]. split; [exact N1|]. split.
  - destruct (C84_put_leaf s (5%N, []) (LeafNode K00 (toy vb)) vb N3) as (s' & P & _ & _ & P2 & _); [intros w Ew; change (newest s K00 = Some w) in Ew; rewrite N1 in Ew; injection Ew as <-; cbn; lia|]. exists s'. split; [exact P|]. rewrite P2, N2. reflexivity.
  - destruct (C84_put_leaf_half_done s (1%N, []) (LeafNode K00 (toy vb)) vb 3 N4 N1) as (s' & e & P & _ & P2 & _); [reflexivity|]. exists s', e. split; [exact P|]. rewrite P2, N2. reflexivity.
Qed.
