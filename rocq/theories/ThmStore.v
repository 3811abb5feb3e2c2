(** The properties of whole histories: every theorem ranges over all sequences of commits (with or without
    proofs, any number of versions per batch) and purges run on a fresh store by the driver of Driver.v.
    [history], [floor], [readable] are defined there, [contents_at] and [smt_root] in Spec.v. *)
From Verif Require Import Base Spec NodeType ProofDef TreeCache Tree Mock Driver KeyFacts SmtFacts ProofFacts NodeFacts Canon CanonSib ReadFacts PutFacts InsertFacts InsertInt InsertInt2 PutTop VersionFacts KeyOrder ValueFacts StoreFacts DriverFacts.
From Coq Require Import Lia.
Local Opaque Spec.smt.

Lemma last_write_cases (l : value_set) k : (last_write l k = None /\ forall y, (k, y) ∉ l) \/
    (exists y l1 l2, last_write l k = Some y /\ l = l1 ++ (k, y) :: l2 /\ forall z, (k, z) ∉ l2).
Proof.
  induction l as [|[k' y] l IH] using rev_ind; [left; split; [done|intros; apply not_elem_of_nil]|]. rewrite last_write_snoc. cbn [fst snd]. case_decide as D.
  - subst k'. right. exists y, l, []. split; [done|]. split; [done|]. intros; apply not_elem_of_nil.
  - destruct IH as [[-> IH]|(z & l1 & l2 & -> & -> & IH)].
    + left. split; [done|]. intros z. rewrite elem_of_app, elem_of_list_singleton. intros [?|[= -> _]]; [by eapply IH|done].
    + right. exists z, l1, (l2 ++ [(k', y)]). split; [done|]. split; [by rewrite <- app_assoc|].
      intros y'. rewrite elem_of_app, elem_of_list_singleton. intros [?|[= -> _]]; [by eapply IH|done].
Qed.
Lemma last_write_unique (k : key) (y : option value) (l1 l2 : value_set) (z : option value) (l3 l4 : value_set) :
  (forall x, (k, x) ∉ l2) -> (forall x, (k, x) ∉ l4) -> l1 ++ (k, y) :: l2 = l3 ++ (k, z) :: l4 -> y = z.
Proof.
  revert l2 z l3 l4. induction l1 as [|a l1 IH]; intros l2 z [|b l3] l4 N1 N2; cbn.
  - congruence.
  - intros [= <- ->]. destruct (N1 z). apply elem_of_app. right. by left.
  - intros [= -> <-]. destruct (N2 y). apply elem_of_app. right. by left.
  - intros [= _ E]. exact (IH _ _ _ _ N1 N2 E).
Qed.
Lemma last_write_Some (l : value_set) k x : last_write l k = Some x <-> exists l1 l2, l = l1 ++ (k, x) :: l2 /\ forall y, (k, y) ∉ l2.
Proof.
  destruct (last_write_cases l k) as [[-> G]|(y & l1 & l2 & -> & -> & G)].
  - split; [done|]. intros (l1 & l2 & -> & _). destruct (G x). apply elem_of_app. right. by left.
  - split; [intros [= ->]; eauto|]. intros (l3 & l4 & E & N). f_equal. exact (last_write_unique _ _ _ _ _ _ _ G N E).
Qed.

Section thm.
Context (H : list byte -> bytes32).

(** No operation of a history fails or panics. *)
Theorem C20_run_never_fails (ops : list op) : exists st xs, run H ops = Ok (st, xs).
Proof. destruct (run_ok H ops) as (st & xs & R & _). eauto. Qed.

(** *** C01: values *)
Theorem C01_get (ops : list op) st xs (k : key) (v : version) : run H ops = Ok (st, xs) ->
  get (store_reader st) k v = Ok (contents_at (history ops) v !! k).
Proof. intros R. apply run_inv in R as [_ S]. unfold get. by rewrite (value_ok H _ _ _ _ _ v k S). Qed.
(** ... where [contents_at] is determined by the last write to the key in the value sets 0..v. *)
Theorem C01_contents_are_the_last_write (hist : list value_set) (v : version) (k : key) :
  let l := concat (take (S (N.to_nat v)) hist) in
  (forall x, contents_at hist v !! k = Some x <-> exists l1 l2, l = l1 ++ (k, Some x) :: l2 /\ forall y, (k, y) ∉ l2) /\
  (contents_at hist v !! k = None <-> (forall y, (k, y) ∉ l) \/ exists l1 l2, l = l1 ++ (k, None) :: l2 /\ forall y, (k, y) ∉ l2).
Proof.
  intros l.
  assert (E : contents_at hist v = apply_set ∅ l).
  { unfold contents_at, l. generalize (take (S (N.to_nat v)) hist) as sets, (∅ : gmap key value) as m. induction sets as [|s sets IH]; intros m; [done|].
    cbn [apply_sets fold_left concat]. unfold apply_sets in IH. rewrite IH. unfold apply_set. by rewrite fold_left_app. }
  rewrite E. clear E. clearbody l.
  pose proof (last_write_cases l k) as G. pose proof (last_write_unique k) as Uq.
  split; [intros x|]; rewrite apply_set_lookup, lookup_empty.
  - destruct G as [[-> G]|(y & l1 & l2 & -> & -> & G)].
    + split; [done|]. intros (l1 & l2 & -> & _). destruct (G (Some x)). apply elem_of_app. right. by left.
    + split; [intros ->; eauto|]. intros (l3 & l4 & E & N). exact (Uq _ _ _ _ _ _ G N E).
  - destruct G as [[-> G]|(y & l1 & l2 & -> & -> & G)].
    + split; [by left|done].
    + split; [intros ->; right; eauto|]. intros [N|(l3 & l4 & E & N)].
      * destruct (N y). apply elem_of_app. right. by left.
      * exact (Uq _ _ _ _ _ _ G N E).
Qed.

(** *** C02, C06, C07: reads with proof *)
Theorem C02_get_with_proof (ops : list op) st xs (k : key) (v : version) : run H ops = Ok (st, xs) -> readable ops v ->
  exists p, get_with_proof H (store_reader st) k v = Ok (contents_at (history ops) v !! k, p).
Proof. intros R L. destruct (read_proof H ops st xs v k R L) as (n & _ & E). eauto. Qed.
Theorem C06_existence_complete (ops : list op) st xs (k : key) (v : version) (x : value) p : run H ops = Ok (st, xs) -> readable ops v ->
  get_with_proof H (store_reader st) k v = Ok (Some x, p) ->
  exists r, get_root_hash H (store_reader st) v = Ok r /\ verify_existence H p r k x = Ok tt.
Proof.
  intros R L E. destruct (read_proof H ops st xs v k R L) as (n & T & E'). destruct (read_root H ops st xs v R L) as [Er _].
  rewrite E in E'. injection E' as Ev ->. eexists. split; [exact Er|]. rewrite <- ms_nil. unfold verify_existence. apply verify_complete; [done|].
  by rewrite lookup_fmap, <- Ev.
Qed.
Theorem C07_nonexistence_complete (ops : list op) st xs (k : key) (v : version) p : run H ops = Ok (st, xs) -> readable ops v ->
  get_with_proof H (store_reader st) k v = Ok (None, p) ->
  exists r, get_root_hash H (store_reader st) v = Ok r /\ verify_nonexistence H p r k = Ok tt.
Proof.
  intros R L E. destruct (read_proof H ops st xs v k R L) as (n & T & E'). destruct (read_root H ops st xs v R L) as [Er _].
  rewrite E in E'. injection E' as Ev ->. eexists. split; [exact Er|]. rewrite <- ms_nil. unfold verify_nonexistence. apply verify_complete; [done|].
  by rewrite lookup_fmap, <- Ev.
Qed.

(** *** C03: the root hash *)
Theorem C03_root_hash (ops : list op) st xs (v : version) : run H ops = Ok (st, xs) -> readable ops v ->
  get_root_hash H (store_reader st) v = Ok (smt_root H (contents_at (history ops) v)) /\
  get_root_hash_option H (store_reader st) v = Ok (Some (smt_root H (contents_at (history ops) v))).
Proof. intros R L. destruct (read_root H ops st xs v R L) as (? & ? & _). done. Qed.
(** the roots returned by the commits, over the whole run: one per version *)
Theorem C03_returned_roots (ops : list op) st xs : run H ops = Ok (st, xs) ->
  flat_map out_roots xs = map (fun i => smt_root H (contents_at (history ops) (N.of_nat i))) (seq 0 (length (history ops))).
Proof. apply run_roots. Qed.

(** *** C04: history independence *)
Theorem C04_history_independent (ops1 ops2 : list op) st1 xs1 st2 xs2 (v1 v2 : version) :
  run H ops1 = Ok (st1, xs1) -> run H ops2 = Ok (st2, xs2) -> readable ops1 v1 -> readable ops2 v2 ->
  (forall k, get (store_reader st1) k v1 = get (store_reader st2) k v2) ->
  get_root_hash H (store_reader st1) v1 = get_root_hash H (store_reader st2) v2.
Proof.
  intros R1 R2 L1 L2 E. destruct (C03_root_hash _ _ _ _ R1 L1) as [-> _]. destruct (C03_root_hash _ _ _ _ R2 L2) as [-> _].
  do 2 f_equal. apply map_eq. intros k. specialize (E k). rewrite (C01_get _ _ _ _ _ R1), (C01_get _ _ _ _ _ R2) in E. by injection E.
Qed.
Theorem C04_insert_then_delete (ops : list op) st xs (k : key) (x : value) : run H ops = Ok (st, xs) ->
  num_versions ops <> 0%N -> get (store_reader st) k (num_versions ops - 1) = Ok None ->
  exists st' xs', run H (ops ++ [Commit [[(k, Some x)]]; Commit [[(k, None)]]]) = Ok (st', xs') /\
    get_root_hash H (store_reader st') (num_versions ops + 1) = get_root_hash H (store_reader st) (num_versions ops - 1).
Proof.
  intros R N E. destruct (C20_run_never_fails (ops ++ [Commit [[(k, Some x)]]; Commit [[(k, None)]]])) as (st' & xs' & R'). exists st', xs'. split; [done|].
  assert (Eh : history (ops ++ [Commit [[(k, Some x)]]; Commit [[(k, None)]]]) = history ops ++ [[(k, Some x)]; [(k, None)]]) by apply history_app.
  assert (Nv : num_versions (ops ++ [Commit [[(k, Some x)]]; Commit [[(k, None)]]]) = (num_versions ops + 2)%N) by apply num_versions_app.
  destruct (C03_root_hash _ _ _ (num_versions ops + 1) R') as [-> _].
  { replace (num_versions ops + 1)%N with (num_versions (ops ++ [Commit [[(k, Some x)]]; Commit [[(k, None)]]]) - 1)%N by lia. apply latest_readable. lia. }
  destruct (C03_root_hash _ _ _ (num_versions ops - 1) R) as [-> _]; [by apply latest_readable|].
  do 2 f_equal. rewrite Eh. rewrite (C01_get _ _ _ _ _ R) in E. injection E as E. unfold contents_at in *.
  rewrite take_ge in E |- * by (unfold num_versions; rewrite ?app_length; cbn [length]; lia). 
  rewrite (take_ge (history ops)) by (unfold num_versions; lia). unfold apply_sets in *. rewrite fold_left_app. cbn. by rewrite delete_insert.
Qed.

(** *** C05: returned roots are the stored ones, for good *)
Theorem C05_returned_root_is_stored (ops more : list op) st xs st' xs' (i : nat) (r : hash) :
  run H ops = Ok (st, xs) -> run H (ops ++ more) = Ok (st', xs') ->
  flat_map out_roots xs !! i = Some r -> readable (ops ++ more) (N.of_nat i) ->
  get_root_hash H (store_reader st') (N.of_nat i) = Ok r /\ get_root_hash_option H (store_reader st') (N.of_nat i) = Ok (Some r).
Proof.
  intros R R' E L. rewrite (run_roots H _ _ _ R) in E. apply list_lookup_fmap_inv in E as (j & -> & E). apply lookup_seq in E as [-> Lj]. cbn [Nat.add].
  destruct (C03_root_hash _ _ _ _ R' L) as [-> ->].
  replace (contents_at (history (ops ++ more)) (N.of_nat i)) with (contents_at (history ops) (N.of_nat i)); [done|].
  rewrite history_app. symmetry. apply contents_at_app. lia.
Qed.

(** *** C11: committed versions are immutable (as long as they stay readable) *)
Theorem C11_immutable (ops more : list op) st xs st' xs' (v : version) (k : key) :
  run H ops = Ok (st, xs) -> run H (ops ++ more) = Ok (st', xs') ->
  (v < num_versions ops)%N -> readable (ops ++ more) v ->
  get (store_reader st') k v = get (store_reader st) k v /\
  get_with_proof H (store_reader st') k v = get_with_proof H (store_reader st) k v /\
  get_root_hash H (store_reader st') v = get_root_hash H (store_reader st) v /\
  get_root_hash_option H (store_reader st') v = get_root_hash_option H (store_reader st) v /\
  get_leaf_count (store_reader st') v = get_leaf_count (store_reader st) v /\
  get_range_proof H (store_reader st') k v = get_range_proof H (store_reader st) k v.
Proof.
  intros R R' Lv L'.
  assert (L : readable ops v) by (split; [pose proof (floor_app ops more); destruct L'; lia|done]).
  assert (E : contents_at (history (ops ++ more)) v = contents_at (history ops) v).
  { rewrite history_app. apply contents_at_app. apply L. }
  destruct (read_proof H _ _ _ v k R L) as (n & T & Ep). destruct (read_proof H _ _ _ v k R' L') as (n' & T' & Ep').
  rewrite E in T', Ep'. assert (n' = n) as -> by (by eapply term_unique).
  destruct (read_root H _ _ _ v R L) as (E1 & E2 & E3). destruct (read_root H _ _ _ v R' L') as (E1' & E2' & E3'). rewrite E in E1', E2', E3'.
  rewrite (C01_get _ _ _ k v R), (C01_get _ _ _ k v R'), E. unfold get_range_proof.
  rewrite Ep, Ep', E1, E1', E2, E2', E3, E3'. done.
Qed.

(** *** C13: the variant with proofs *)
Theorem C13_with_proof_same_effect (ops : list op) st xs (sets : list value_set) : run H ops = Ok (st, xs) ->
  exists rp b, put_value_sets_with_proof H (store_reader st) sets (num_versions ops) = Ok (rp, b) /\
    put_value_sets H (store_reader st) sets (num_versions ops) = Ok (rp.*1, b).
Proof.
  intros R. apply run_inv in R as [_ S]. destruct (commit_batch H _ _ _ _ _ sets S) as (_ & b & pfss & P1 & P2 & P3 & P4).
  eexists _, b. split; [exact P2|]. unfold num_versions. rewrite P1. do 2 f_equal. rewrite fst_zip; [done|]. rewrite (pfss_ok_length _ _ _ _ P4), map_length, trn_length. lia.
Qed.

(** *** C14: update proofs verify.  [contents_before hist i] is the map before version [i]. *)
Definition contents_before (hist : list value_set) (i : nat) : gmap key value := apply_sets ∅ (take i hist).
Theorem C14_update_proofs_verify (ovf : bool) (ops : list op) st xs (sets : list value_set) rp b (i : nat) s r pfs :
  run H ops = Ok (st, xs) ->
  put_value_sets_with_proof H (store_reader st) sets (num_versions ops) = Ok (rp, b) ->
  sets !! i = Some s -> rp !! i = Some (r, pfs) ->
  r = smt_root H (contents_before (history ops ++ sets) (S (length (history ops) + i))) /\
  verify_update H ovf pfs (smt_root H (contents_before (history ops ++ sets) (length (history ops) + i))) r s = Ok tt.
Proof.
  intros R P Es Er. apply run_inv in R as [_ S]. destruct (commit_batch H _ _ _ _ _ sets S) as (_ & b' & pfss & P1 & P2 & P3 & P4).
  unfold num_versions in P. rewrite P2 in P. injection P as <- <-.
  pose proof (si_bmap _ _ _ _ _ _ S) as Eb. rewrite Eb in P4.
  rewrite (lookup_zip_with pair) in Er. apply bind_Some in Er as (r' & Er & Ep). apply bind_Some in Ep as (p' & Ep & [= -> ->]).
  apply list_lookup_fmap_inv in Er as (x & -> & Ex). pose proof (trn_maps H _ _ _ _ _ sets S i x Ex) as [_ Em].
  pose proof (pfss_update H ovf sets _ _ P4 i s pfs Es Ep) as V.
  assert (G : forall j, apply_sets (last_contents (history ops)) (take j sets) = contents_before (history ops ++ sets) (length (history ops) + j)).
  { intros j. unfold contents_before, last_contents, apply_sets. rewrite <- fold_left_app, take_app_ge by lia. do 3 f_equal. lia. }
  rewrite Em, ms_nil. unfold contents_at. rewrite Nat2N.id. 
  split; [done|]. rewrite !G in V. by rewrite Nat.add_succ_r in V.
Qed.
(** one value set, in terms of the API only: the old root is the one stored for the previous version, the
    placeholder for the first *)
Theorem C14_update_proof_verifies (ovf : bool) (ops : list op) st xs (s : value_set) r pfs b :
  run H ops = Ok (st, xs) ->
  put_value_set_with_proof H (store_reader st) s (num_versions ops) = Ok (r, pfs, b) ->
  exists old, (if decide (num_versions ops = 0%N) then old = SPARSE_MERKLE_PLACEHOLDER_HASH
               else get_root_hash H (store_reader st) (num_versions ops - 1) = Ok old) /\
    verify_update H ovf pfs old r s = Ok tt.
Proof.
  intros R P. unfold put_value_set_with_proof in P.
  destruct (put_value_sets_with_proof H (store_reader st) [s] (num_versions ops)) as [[rp b']| |] eqn:E; try done.
  rewrite bind_Ok in P. destruct rp as [|[r0 p0] [|]]; try done. injection P as -> -> ->.
  destruct (C14_update_proofs_verify ovf ops st xs [s] _ _ 0 s r pfs R E eq_refl eq_refl) as [_ V]. rewrite Nat.add_0_r in V.
  eexists. split; [|exact V]. unfold contents_before. rewrite take_app. case_decide as D.
  - unfold num_versions in D. assert (length (history ops) = 0) as L by lia. apply length_zero_iff_nil in L as ->. cbn.
    unfold smt_root. by rewrite fmap_empty, map_to_list_empty.
  - destruct (C03_root_hash _ _ _ _ R (latest_readable ops D)) as [-> _]. unfold contents_at. rewrite take_ge by (unfold num_versions; lia). done.
Qed.

(** *** C25, C49 *)
Theorem C25_leaf_count (ops : list op) st xs (v : version) : run H ops = Ok (st, xs) -> readable ops v ->
  get_leaf_count (store_reader st) v = Ok (size (contents_at (history ops) v)).
Proof. intros R L. by destruct (read_root H ops st xs v R L) as (_ & _ & E). Qed.
Theorem C49_proof_size (ops : list op) st xs (v : version) (k : key) x p : run H ops = Ok (st, xs) -> readable ops v ->
  get_with_proof H (store_reader st) k v = Ok (x, p) ->
  length (p_siblings p) <= 256 /\ (size (contents_at (history ops) v) <= 1 -> p_siblings p = []).
Proof.
  intros R L E. destruct (read_proof H ops st xs v k R L) as (n & T & E'). rewrite E in E'. injection E' as _ ->.
  cbn. rewrite rev_length, hsibs_length. pose proof T as (T1 & T2 & T3). split; [done|]. intros Hs.
  destruct n as [|n]; [done|]. exfalso. specialize (T3 0 ltac:(lia)). cbn in T3. rewrite under_nil, map_size_fmap in T3. lia.
Qed.

(** *** C39: a version without effect *)
Theorem C39_noop_version (ops : list op) st xs (s : value_set) : run H ops = Ok (st, xs) -> num_versions ops <> 0%N ->
  (forall k y, (k, y) ∈ s -> y = None /\ get (store_reader st) k (num_versions ops - 1) = Ok None) ->
  exists st' x, step H st (num_versions ops) (Commit [s]) = Ok (st', x) /\
    get_root_hash H (store_reader st') (num_versions ops) = get_root_hash H (store_reader st) (num_versions ops - 1) /\
    forall k, get (store_reader st') k (num_versions ops) = get (store_reader st) k (num_versions ops - 1) /\
      get_with_proof H (store_reader st') k (num_versions ops) = get_with_proof H (store_reader st) k (num_versions ops - 1).
Proof.
  intros R Nz Hs. destruct (run_ok H (ops ++ [Commit [s]])) as (st1 & xs1 & R1 & _).
  pose proof R1 as R1'. unfold run in R1'. rewrite run_from_app in R1'. fold (run H ops) in R1'. rewrite R, bind_Ok, N.add_0_l in R1'. cbn [run_from] in R1'.
  destruct (step H st (num_versions ops) (Commit [s])) as [[st' x]| |] eqn:E; [|done..]. rewrite !bind_Ok in R1'. injection R1' as -> <-.
  exists st1, x. split; [done|].
  assert (Nv : num_versions (ops ++ [Commit [s]]) = (num_versions ops + 1)%N) by apply num_versions_app.
  assert (L1 : readable (ops ++ [Commit [s]]) (num_versions ops)).
  { pose proof (latest_readable (ops ++ [Commit [s]]) ltac:(lia)) as G. replace (num_versions (ops ++ [Commit [s]]) - 1)%N with (num_versions ops) in G by lia. exact G. }
  pose proof (latest_readable ops Nz) as L.
  assert (Em : contents_at (history (ops ++ [Commit [s]])) (num_versions ops) = contents_at (history ops) (num_versions ops - 1)).
  { rewrite history_app. change (history [Commit [s]]) with [s]. unfold contents_at. rewrite !take_ge by (unfold num_versions; rewrite ?app_length; cbn [length]; lia).
    unfold apply_sets. rewrite fold_left_app. cbn [fold_left]. fold (apply_sets ∅ (history ops)).
    assert (G : forall k y, (k, y) ∈ s -> y = None /\ apply_sets ∅ (history ops) !! k = None).
    { intros k y Hk. destruct (Hs k y Hk) as [-> Hg]. split; [done|]. rewrite (C01_get _ _ _ _ _ R) in Hg. injection Hg as Hg. unfold contents_at in Hg.
      rewrite take_ge in Hg by (unfold num_versions; lia). done. }
    clear -G. induction s as [|[k y] s IH]; [done|]. cbn. unfold apply_write at 2. cbn. destruct (G k y ltac:(by left)) as [-> Gk]. rewrite delete_notin by done.
    apply IH. intros k' y' Hk. apply G. by right. }
  destruct (read_root H _ _ _ _ R L) as (E1 & E2 & E3). destruct (read_root H _ _ _ _ R1 L1) as (E1' & E2' & E3').
  split; [rewrite E1, E1', Em; done|]. intros k.
  destruct (read_proof H _ _ _ _ k R L) as (n & T & Ep). destruct (read_proof H _ _ _ _ k R1 L1) as (n' & T' & Ep').
  rewrite Em in T', Ep'. assert (n' = n) as -> by (by eapply term_unique). rewrite (C01_get _ _ _ _ _ R), (C01_get _ _ _ _ _ R1), Em, Ep, Ep'. done.
Qed.
End thm.
