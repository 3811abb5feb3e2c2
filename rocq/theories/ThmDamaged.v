(** C70: a commit on a store that has lost nodes; C71: a commit that runs concurrently with purges. *)
From Verif Require Import Base Spec NodeType ProofDef TreeCache Tree BatchTree Mock Driver ProofFacts Canon PutFacts PutTop VersionFacts ValueFacts StoreFacts DriverFacts DriverFacts2 ThmProof ThmCrash ThmPurged CommitMono ThmBatch Demo Toy.
From Coq Require Import Lia.
Local Opaque Spec.smt.

(** *** Specification *)
Section spec.
Context (H : list byte -> bytes32).
Definition is_purge (o : op) : bool := match o with Purge _ => true | _ => false end.
(** The states the store passes through after [ops] while nothing but purging goes on: between two purges, or in the middle of one. *)
Inductive purging (ops : list op) : store -> Prop :=
| purging_between more st xs : Forall (fun o => is_purge o = true) more -> run H (ops ++ more) = Ok (st, xs) -> purging ops st
| purging_within more st xs l s : Forall (fun o => is_purge o = true) more -> run H (ops ++ more) = Ok (st, xs) -> partly_purged l st s -> purging ops s.
End spec.

(** *** Proof *)
Section proof.
Context (H : list byte -> bytes32).
(** the three ways to commit, on a reader with fewer nodes *)
Lemma commits_le rd rd' n : (0 < n)%N -> (forall nk nd, rd_node rd nk = Some nd -> rd_node rd' nk = Some nd) -> (forall w, (n <= w)%N -> rd_node rd' (w, []) = None) ->
  rd_node rd (nk_root (n - 1)) <> None -> forall sets,
  (forall y, put_value_sets H rd sets n = Ok y -> put_value_sets H rd' sets n = Ok y) /\
  (forall y, put_value_sets_with_proof H rd sets n = Ok y -> put_value_sets_with_proof H rd' sets n = Ok y) /\
  (forall ins hs y, batch_put_value_sets H rd ins hs n = Ok y -> batch_put_value_sets H rd' ins hs n = Ok y).
Proof.
  intros Ln Le Fr Rt sets. assert (C : cache_new rd n = cache_new rd' n) by (unfold cache_new; destruct (n =? 0)%N eqn:E0; [apply N.eqb_eq in E0; lia|done]).
  assert (R : rootish rd n (tc_root (cache_new rd n))).
  { unfold cache_new. destruct (n =? 0)%N eqn:E0; [apply N.eqb_eq in E0; lia|]. cbn. exists (n - 1)%N. split; [done|by right]. }
  split_and!.
  - intros y E. unfold put_value_sets in *. apply bind_inv' in E as (c & E & ?). rewrite <- C, (put_sets_le H rd rd' n Le Fr sets n _ _ (N.le_refl n) R E), bind_Ok. done.
  - intros y E. unfold put_value_sets_with_proof in *. apply bind_inv' in E as (c & E & ?). rewrite <- C, (put_sets_wp_le H rd rd' n Le Fr sets n _ _ (N.le_refl n) R E), bind_Ok. done.
  - intros ins hs y E. unfold batch_put_value_sets in *. cbn zeta in *. apply bind_inv' in E as (u & -> & E). rewrite bind_Ok. apply bind_inv' in E as (c & E & ?).
    rewrite <- C, (batch_sets_le H rd rd' n Le Fr _ n _ _ (N.le_refl n) R E), bind_Ok. done.
Qed.
Lemma nodes_before ops st xs nk nd : run H ops = Ok (st, xs) -> st_nodes st !! nk = Some nd -> (nk.1 < num_versions ops)%N.
Proof.
  intros R E. apply run_inv in R as [_ S]. apply (si_nodes _ _ _ _ _ _ S) in E as [(y & Hy & [-> _]) _].
  unfold num_versions. rewrite <- (si_len _ _ _ _ _ _ S). apply (tr_lt H); [by eapply si_trok|done].
Qed.
Lemma run_fresh ops st xs w : run H ops = Ok (st, xs) -> (num_versions ops <= w)%N -> st_nodes st !! (w, []) = None.
Proof. intros R L. destruct (st_nodes st !! (w, [])) eqn:E; [|done]. apply (nodes_before _ _ _ _ _ R) in E. cbn in E. lia. Qed.

(** A commit that succeeds although nodes are missing (but not the root) gives exactly what the whole store gives. *)
Theorem C70_damaged_store (ops : list op) st xs (rd : reader) (sets : list (list (key * option value))) : run H ops = Ok (st, xs) -> (0 < num_versions ops)%N ->
  (forall nk nd, rd_node rd nk = Some nd -> rd_node (store_reader st) nk = Some nd) -> rd_node rd (num_versions ops - 1, [])%N <> None ->
  (forall y, put_value_sets H rd sets (num_versions ops) = Ok y -> put_value_sets H (store_reader st) sets (num_versions ops) = Ok y) /\
  (forall y, put_value_sets_with_proof H rd sets (num_versions ops) = Ok y -> put_value_sets_with_proof H (store_reader st) sets (num_versions ops) = Ok y) /\
  (forall ins hashes y, batch_put_value_sets H rd ins hashes (num_versions ops) = Ok y -> batch_put_value_sets H (store_reader st) ins hashes (num_versions ops) = Ok y).
Proof.
  intros R L Le Rt. apply commits_le; [done|done| |done]. intros w Lw. cbn. by eapply run_fresh.
Qed.

(** the state after a purge of everything stale *)
Lemma purges_xrun more tb : Forall (fun o => is_purge o = true) more -> xrun H tb more = tb.
Proof. induction 1 as [|o more P _ IH]; [done|]. destruct o; try done. Qed.
Lemma purges_history more : Forall (fun o => is_purge o = true) more -> history more = [].
Proof. induction 1 as [|o more P _ IH]; [done|]. destruct o; try done. Qed.
Lemma purged_all ops st xs : run H ops = Ok (st, xs) -> exists st0 xs0, run H (ops ++ [Purge (num_versions ops - 1)%N]) = Ok (st0, xs0) /\
  forall s, purging H ops s -> forall nk nd, st_nodes st0 !! nk = Some nd -> st_nodes s !! nk = Some nd.
Proof.
  intros R. pose proof R as R0. apply run_inv in R as [_ S]. set (l := (num_versions ops - 1)%N).
  destruct (step_ok H st _ _ _ (Purge l) S) as (st2 & x & E & O & _). fold (num_versions ops) in E.
  exists st2, (xs ++ [x]). split; [by eapply run_snoc|]. cbn [step] in E. destruct (purge_stale_nodes st l) as [st2'| |] eqn:Ep; [|done..]. rewrite bind_Ok in E. injection E as <- _.
  apply purge_loop_nodes in Ep as [_ Ep].
  assert (Live : forall nk nd, st_nodes st2' !! nk = Some nd -> (exists y, y ∈ (xrun H tb0 ops).1 /\ nodes_of H y nk nd) /\ forall s, ~ stale_at (xrun H tb0 ops).1 s nk).
  { intros nk nd En. apply Ep in En as [En Es]. apply (si_nodes _ _ _ _ _ _ S) in En as [Ey Hs]. split; [done|]. intros s Sa. pose proof (Hs s Sa) as Is.
    apply (Es (s, nk)); [|done]. apply elem_of_elements, elem_of_filter. split; [|done]. cbn. destruct Sa as (z & Iz & -> & _).
    apply (tr_lt H) in Iz; [|by eapply si_trok]. unfold l, num_versions. rewrite <- (si_len _ _ _ _ _ _ S). lia. }
  assert (Btw : forall more st' xs', Forall (fun o => is_purge o = true) more -> run H (ops ++ more) = Ok (st', xs') -> forall nk nd, st_nodes st2' !! nk = Some nd -> st_nodes st' !! nk = Some nd).
  { intros more st' xs' Fm Rm nk nd En. apply run_inv in Rm as [_ Sm]. rewrite xrun_app, (purges_xrun _ _ Fm) in Sm. apply Live in En as [Ey Hs].
    apply (si_nodes _ _ _ _ _ _ Sm). split; [done|]. intros s Sa. by apply Hs in Sa. }
  intros s [more st' xs' Fm Rm|more st' xs' l' s' Fm Rm P].
  - by eapply Btw.
  - intros nk nd En. destruct (purge_keeps H _ _ _ _ _ Rm P) as (s2 & xs2 & R2 & I1 & _). apply (I1 nk nd). rewrite <- app_assoc in R2. eapply Btw; [|exact R2|done].
    apply Forall_app. split; [done|by constructor].
Qed.
Lemma purging_fresh ops s nk nd : purging H ops s -> st_nodes s !! nk = Some nd -> (nk.1 < num_versions ops)%N.
Proof.
  assert (N : forall more, Forall (fun o => is_purge o = true) more -> num_versions (ops ++ more) = num_versions ops) by (intros more Fm; unfold num_versions; by rewrite history_app, (purges_history _ Fm), app_nil_r).
  intros [more st' xs' Fm Rm|more st' xs' l' s' Fm Rm P] E.
  - rewrite <- (N more Fm). by eapply nodes_before.
  - rewrite <- (N more Fm). apply purge_only_removes in P as [P _]. apply P in E. by eapply nodes_before.
Qed.
Lemma empty_history ops st xs : run H ops = Ok (st, xs) -> num_versions ops = 0%N -> forall nk, st_nodes st !! nk = None.
Proof. intros R N nk. destruct (st_nodes st !! nk) eqn:E; [|done]. apply (nodes_before _ _ _ _ _ R) in E. lia. Qed.

(** Commits that read the store while it is being purged give exactly what they give on the store at rest. *)
Theorem C71_concurrent_purge (ops : list op) st xs (rd : reader) : run H ops = Ok (st, xs) ->
  (forall nk, exists s, purging H ops s /\ rd_node rd nk = st_nodes s !! nk) ->
  (forall sets, put_value_sets H rd sets (num_versions ops) = put_value_sets H (store_reader st) sets (num_versions ops)) /\
  (forall sets, put_value_sets_with_proof H rd sets (num_versions ops) = put_value_sets_with_proof H (store_reader st) sets (num_versions ops)) /\
  (forall ins, Forall (fun s => s <> []) ins -> batch_put_value_sets H rd ins None (num_versions ops) = batch_put_value_sets H (store_reader st) ins None (num_versions ops)).
Proof.
  intros R C. destruct (purged_all ops st xs R) as (st0 & xs0 & R0 & All). set (n := num_versions ops) in *.
  assert (Pst : purging H ops st) by (apply (purging_between H ops [] st xs); [constructor|by rewrite app_nil_r]).
  assert (Fr : forall w, (n <= w)%N -> rd_node rd (w, []) = None).
  { intros w L. destruct (C (w, [])) as (s & Ps & ->). destruct (st_nodes s !! (w, [])) eqn:E; [|done]. apply (purging_fresh _ _ _ _ Ps) in E. cbn in E. fold n in E. lia. }
  assert (Le : forall nk nd, rd_node (store_reader st0) nk = Some nd -> rd_node rd nk = Some nd) by (intros nk nd E; destruct (C nk) as (s & Ps & ->); by eapply All).
  assert (Ls : forall nk nd, rd_node (store_reader st0) nk = Some nd -> rd_node (store_reader st) nk = Some nd) by (intros nk nd E; by eapply All).
  assert (N0 : num_versions (ops ++ [Purge (n - 1)%N]) = n) by (unfold n, num_versions; rewrite history_app; cbn; by rewrite app_nil_r).
  pose proof R0 as R1. apply run_inv in R1 as [_ S0].
  assert (Both : forall sets, (exists y, put_value_sets H (store_reader st0) sets n = Ok y /\ put_value_sets H rd sets n = Ok y /\ put_value_sets H (store_reader st) sets n = Ok y) /\
    (exists y, put_value_sets_with_proof H (store_reader st0) sets n = Ok y /\ put_value_sets_with_proof H rd sets n = Ok y /\ put_value_sets_with_proof H (store_reader st) sets n = Ok y) /\
    (forall ins y, batch_put_value_sets H (store_reader st0) ins None n = Ok y -> batch_put_value_sets H rd ins None n = Ok y /\ batch_put_value_sets H (store_reader st) ins None n = Ok y)).
  { intros sets. destruct (commit_batch H _ _ _ _ _ sets S0) as (_ & b & pfss & P1 & P2 & _). fold (num_versions (ops ++ [Purge (n - 1)%N])) in P1, P2. rewrite N0 in P1, P2.
    destruct (decide (n = 0%N)) as [Z|Z].
    - (* nothing was ever committed: the three stores are empty *)
      assert (E1 : forall nk, rd_node rd nk = None) by (intros nk; destruct (C nk) as (s & Ps & ->); destruct (st_nodes s !! nk) eqn:E; [|done]; apply (purging_fresh _ _ _ _ Ps) in E; fold n in E; lia).
      assert (E2 : forall nk, rd_node (store_reader st) nk = None) by (intros nk; by eapply empty_history).
      assert (E3 : forall nk, rd_node (store_reader st0) nk = None) by (intros nk; eapply empty_history; [exact R0|by rewrite N0]).
      assert (CN : forall r, (forall nk, rd_node r nk = None) -> cache_new r n = cache_new (store_reader st0) n) by (intros r Er; unfold cache_new; by rewrite Er, E3).
      assert (RT : forall r, rootish r 0 (tc_root (cache_new (store_reader st0) n))) by (intros r; rewrite Z; unfold cache_new; rewrite E3; cbn; exists 0%N; split; [done|left; lia]).
      assert (LE : forall r, forall nk nd, rd_node (store_reader st0) nk = Some nd -> rd_node r nk = Some nd) by (intros r nk nd; by rewrite E3).
      assert (FR : forall r, (forall nk, rd_node r nk = None) -> forall w, (0 <= w)%N -> rd_node r (w, []) = None) by (intros r Er w _; apply Er).
      split_and!.
      + exists (rootl H (trn H (xrun H tb0 (ops ++ [Purge (n - 1)%N])).1 (xrun H tb0 (ops ++ [Purge (n - 1)%N])).2 sets), b). split; [exact P1|].
        unfold put_value_sets in *. apply bind_inv' in P1 as (c & P1 & Ec). rewrite (CN rd E1), (CN (store_reader st) E2).
        rewrite (put_sets_le H _ rd 0%N (LE rd) (FR rd E1) sets n _ _ (N.le_0_l n) (RT _) P1), bind_Ok. rewrite (put_sets_le H _ (store_reader st) 0%N (LE _) (FR _ E2) sets n _ _ (N.le_0_l n) (RT _) P1), bind_Ok. done.
      + eexists. split; [exact P2|]. unfold put_value_sets_with_proof in *. apply bind_inv' in P2 as (c & P2 & Ec). rewrite (CN rd E1), (CN (store_reader st) E2).
        rewrite (put_sets_wp_le H _ rd 0%N (LE rd) (FR rd E1) sets n _ _ (N.le_0_l n) (RT _) P2), bind_Ok. rewrite (put_sets_wp_le H _ (store_reader st) 0%N (LE _) (FR _ E2) sets n _ _ (N.le_0_l n) (RT _) P2), bind_Ok. done.
      + intros ins y E. unfold batch_put_value_sets in *. cbn zeta in *. apply bind_inv' in E as (u & -> & E). rewrite !bind_Ok. apply bind_inv' in E as (c & E & Ec). rewrite (CN rd E1), (CN (store_reader st) E2).
        rewrite (batch_sets_le H _ rd 0%N (LE rd) (FR rd E1) _ n _ _ (N.le_0_l n) (RT _) E), bind_Ok. rewrite (batch_sets_le H _ (store_reader st) 0%N (LE _) (FR _ E2) _ n _ _ (N.le_0_l n) (RT _) E), bind_Ok. done.
    - assert (Ln : (0 < n)%N) by lia.
      assert (Rt : rd_node (store_reader st0) (nk_root (n - 1)) <> None).
      { assert (Rd : readable (ops ++ [Purge (n - 1)%N]) (n - 1)%N).
        { rewrite <- N0 at 2. apply latest_readable. by rewrite N0. }
        destruct (run_view H _ _ _ _ R0 Rd) as (ver & [Rt _] & _). unfold nk_root. rewrite Rt. done. }
      destruct (commits_le (store_reader st0) rd n Ln Le Fr Rt sets) as (A1 & A2 & A3).
      assert (Frs : forall w, (n <= w)%N -> rd_node (store_reader st) (w, []) = None) by (intros w L; cbn; by eapply run_fresh).
      destruct (commits_le (store_reader st0) (store_reader st) n Ln Ls Frs Rt sets) as (B1 & B2 & B3).
      split_and!.
      + eexists. split; [exact P1|]. split; [by apply A1|by apply B1].
      + eexists. split; [exact P2|]. split; [by apply A2|by apply B2].
      + intros ins y E. split; [by apply A3|by apply B3]. }
  split_and!.
  - intros sets. destruct (Both sets) as ((y & _ & -> & ->) & _). done.
  - intros sets. destruct (Both sets) as (_ & (y & _ & -> & ->) & _). done.
  - intros ins F. destruct (Both (insertions ins)) as ((y & E & _) & _ & K). pose proof (C19_batch_equals_put H _ _ _ ins R0 F) as Eb. rewrite N0, E in Eb. destruct (K ins y Eb) as [-> ->]. done.
Qed.
End proof.

(** *** Concrete cases *)
Definition dmg_ops : list op := [Commit [[(K00, Some va); (K80, Some vb); (KC0, Some vc)]; [(K80, Some vc)]]].
(** the store without one of its nodes *)
Definition without (nk : nodekey) (st : store) : store := mkStore (delete nk (st_nodes st)) (st_stale st) (st_history st) (st_overwrite st).
Definition same_commit (st st' : store) (sets : list (list (key * option value))) (n : version) : bool :=
  match put_value_sets toy (store_reader st) sets n, put_value_sets toy (store_reader st') sets n with
  | Ok (r, b), Ok (r', b') => bool_decide (r = r') && bool_decide (tb_nodes b = tb_nodes b') && bool_decide (tb_stale b = tb_stale b') && bool_decide (tb_values b = tb_values b')
  | _, _ => false
  end.
Definition dmg_check : bool :=
  match run toy dmg_ops with
  | Ok (st, _) =>
      let d := without (1%N, take 1 (key_nibbles K80)) st in
      bool_decide (is_Some (st_nodes st !! (1%N, take 1 (key_nibbles K80)))) && bool_decide (is_Some (st_nodes d !! (1%N, []))) &&
      same_commit d st [[(K00, Some vc)]; [(KC0, None); (K00, Some va)]] 2
      && match put_value_sets toy (store_reader d) [[(K80, Some va)]] 2 with Ok _ => false | _ => true end
      && match put_value_sets_with_proof toy (store_reader d) [[(KC0, Some va)]] 2 with Ok _ => false | _ => true end
  | _ => false
  end.
(** one leaf lost: commits that leave it alone give what they should, commits that need it (an update of it, or a proof whose sibling it is) fail *)
Example demo_damaged : num_versions dmg_ops = 2%N /\ dmg_check = true.
Proof. split; [reflexivity|]. vm_compute. reflexivity. Qed.
Definition lost_root_check : bool :=
  match run toy dmg_ops with
  | Ok (st, _) =>
      match put_value_sets toy (store_reader (without (1%N, []) st)) [[(K00, Some vc)]] 2, put_value_sets toy (store_reader st) [[(K00, Some vc)]] 2 with
      | Ok (r, _), Ok (r', _) => negb (bool_decide (r = r')) && bool_decide (r = [smt_root toy {[ K00 := vc ]}])
      | _, _ => false
      end
  | _ => false
  end.
(** The hypothesis on the root is needed: when the latest root is lost, a commit succeeds and silently starts from an empty tree. *)
Theorem C70_lost_root_refuted : exists H ops st xs set r b, run H ops = Ok (st, xs) /\ last_contents (history ops) <> ∅ /\
  put_value_sets H (store_reader (without (num_versions ops - 1, [])%N st)) [set] (num_versions ops) = Ok (r, b) /\
  r = [smt_root H (apply_set ∅ set)] /\ forall r' b', put_value_sets H (store_reader st) [set] (num_versions ops) = Ok (r', b') -> r' <> r.
Proof.
  assert (E : lost_root_check = true) by (vm_compute; reflexivity). unfold lost_root_check in E. destruct (run toy dmg_ops) as [[st xs]| |] eqn:R; [|discriminate E..].
  assert (Nv : num_versions dmg_ops = 2%N) by reflexivity.
  destruct (put_value_sets toy (store_reader (without (1%N, []) st)) [[(K00, Some vc)]] 2) as [[r b]| |] eqn:E1; [|discriminate E..].
  destruct (put_value_sets toy (store_reader st) [[(K00, Some vc)]] 2) as [[r' b']| |] eqn:E2; [|discriminate E..].
  apply andb_prop in E as [Ea Eb]. apply negb_true_iff, bool_decide_eq_false_1 in Ea. apply bool_decide_eq_true_1 in Eb.
  exists toy, dmg_ops, st, xs, [(K00, Some vc)], r, b. rewrite Nv. change (2 - 1)%N with 1%N. split_and!.
  - exact R.
  - assert (X : bool_decide (last_contents (history dmg_ops) = ∅) = false) by (vm_compute; reflexivity). by apply bool_decide_eq_false_1 in X.
  - exact E1.
  - rewrite Eb. reflexivity.
  - intros r2 b2 F. rewrite E2 in F. apply Ok_inj in F. injection F as <- <-. intros X. by apply Ea.
Qed.
(** a reader that finds every other node in the state before a purge *)
Definition mixed (st st1 : store) : reader := mkReader (fun nk => if bool_decide (nk.2 = []) then st_nodes st !! nk else st_nodes st1 !! nk) (store_value st) None.
Example demo_concurrent_purge : exists st xs st1 xs1, run toy dmg_ops = Ok (st, xs) /\ run toy (dmg_ops ++ [Purge 1]) = Ok (st1, xs1) /\
  (size (st_nodes st1) < size (st_nodes st)) /\ (forall nk, exists s, purging toy dmg_ops s /\ rd_node (mixed st st1) nk = st_nodes s !! nk).
Proof.
  assert (E : match run toy dmg_ops, run toy (dmg_ops ++ [Purge 1]) with Ok (st, _), Ok (st1, _) => size (st_nodes st1) <? size (st_nodes st) | _, _ => false end = true) by (vm_compute; reflexivity).
  destruct (run toy dmg_ops) as [[st xs]| |] eqn:R; [|discriminate E..]. destruct (run toy (dmg_ops ++ [Purge 1])) as [[st1 xs1]| |] eqn:R1; [|discriminate E..].
  exists st, xs, st1, xs1. split; [reflexivity|]. split; [reflexivity|]. split; [by apply Nat.ltb_lt|]. intros nk. cbn [rd_node mixed]. case_bool_decide.
  - exists st. split; [|reflexivity]. apply (purging_between toy dmg_ops [] st xs); [constructor|]. rewrite app_nil_r. exact R.
  - exists st1. split; [|reflexivity]. apply (purging_between toy dmg_ops [Purge 1] st1 xs1); [constructor; [reflexivity|constructor]|]. exact R1.
Qed.
