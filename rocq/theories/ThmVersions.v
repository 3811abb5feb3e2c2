(** C74: the versions in nodes, links, stale indices and value histories.  C75: when and how often a store is purged. *)
From Verif Require Import Base Spec NodeType ProofDef TreeCache Tree Mock Driver KeyFacts SmtFacts ProofFacts NodeFacts Canon CanonSib ReadFacts PutFacts InsertFacts InsertInt InsertInt2 PutTop VersionFacts KeyOrder ValueFacts StoreFacts DriverFacts DriverFacts2 ThmProof ThmStore ThmStore2 Demo.
From Coq Require Import Lia.
Local Opaque Spec.smt.

(** *** Specification of C74 *)
(** A node written for version [nk.1]: its links point to that version or older ones. *)
Definition links_back (nk : nodekey) (nd : node) : Prop :=
  forall i n c, nd = Internal i -> in_children i !! n = Some c -> (c_version c <= nk.1)%N.

Section versions.
Context (H : list byte -> bytes32).
Notation nodes_of := (nodes_of H).
Notation Tr := (Tr H).
Notation trn := (trn H).

(** versions along a trace *)
Lemma tr_back tr b : Tr tr b -> forall x q, x ∈ tr -> lv [] q (a_map (vs_a x)) -> (a_ver (vs_a x) q <= vs_v x)%N.
Proof.
  induction 1 as [s O|tr b b' s T IH Hb O]; intros x q Hx L.
  - apply elem_of_list_singleton in Hx as ->. destruct O as (O1 & _). destruct (O1 q L) as [->|(L0 & _)]; [lia|]. by apply lv_nil_M in L0.
  - apply elem_of_app in Hx as [Hx| ->%elem_of_list_singleton]; [by apply IH|].
    pose proof (tr_inv H _ _ T) as (Tok & C & y & Ly & Eb).
    assert (C' : cur_ok H tr b') by (destruct Hb as [->| ->]; [done|by eapply cur_rekey]).
    destruct O as (O1 & _). destruct (O1 q L) as [->|(L0 & E & _)]; [lia|]. rewrite <- E. cbn [vs_M0 vs_ver0 vs_v vnext VersionFacts.vnext] in *.
    destruct C' as (C1 & _). destruct (C1 q L0) as [(z & Hz & N) _]. destruct N as [N _]. cbn in N. rewrite N. apply (tr_lt H tr z Tok) in Hz. lia.
Qed.
Lemma nodes_back tr b x nk nd : Tr tr b -> x ∈ tr -> nodes_of x nk nd -> links_back nk nd.
Proof.
  intros T Hx (Ev & -> & _) i n c E Ec. rewrite Ev.
  destruct (size_cases (U nk.2 (a_map (vs_a x)))) as [Eu|[(k & h & Eu)|Hm]]; [by rewrite node_at_null in E|by rewrite (node_at_leaf H _ _ _ k h) in E|].
  rewrite node_at_internal in E by done. injection E as <-. cbn [in_children] in Ec. rewrite children_of_lookup in Ec. apply child_of_inv in Ec as (Ne & _ & -> & _).
  apply (tr_back _ _ T x _ Hx). split; [apply prefix_nil|]. split; [done|]. right. by rewrite parent_snoc.
Qed.
Lemma si_Tr st tr b hist f x : SInv H st tr b hist f -> x ∈ tr -> Tr tr b.
Proof. intros S Hx. destruct (si_tr _ _ _ _ _ _ S) as [[-> _]|T]; [by apply elem_of_nil in Hx|done]. Qed.

(** *** C74 *)
(** After any history of [n] versions, every version in the store is less than [n]: of the nodes, of their links (which
    point to the node's own version or older ones), of the stale indices (a node is retired after the version it was
    written for), and of the values. *)
Theorem C74_versions_in_store (ops : list op) st xs : run H ops = Ok (st, xs) ->
  (forall nk nd, st_nodes st !! nk = Some nd -> (nk.1 < num_versions ops)%N /\ links_back nk nd) /\
  (forall s nk, (s, nk) ∈ st_stale st -> (nk.1 < s)%N /\ (s < num_versions ops)%N) /\
  (forall k l v x, st_history st !! k = Some l -> (v, x) ∈ l -> (v < num_versions ops)%N).
Proof.
  intros R. apply run_inv in R as [_ S]. pose proof (si_trok _ _ _ _ _ _ S) as T.
  assert (Lt : forall x, x ∈ (xrun H tb0 ops).1 -> (vs_v x < num_versions ops)%N).
  { intros x Hx. apply (tr_lt H _ x T) in Hx. by rewrite (si_len _ _ _ _ _ _ S) in Hx. }
  split_and!.
  - intros nk nd E. apply (si_nodes _ _ _ _ _ _ S) in E as [(x & Hx & N) _]. split; [|by eapply nodes_back; [by eapply si_Tr| |]].
    destruct N as [-> _]. by apply Lt.
  - intros s nk E. apply (si_stale _ _ _ _ _ _ S) in E as (x & Hx & -> & Sx). split; [|by apply Lt]. destruct T as (_ & T2 & _). by apply (T2 x nk Hx).
  - intros k l v x E Hl. pose proof (si_hist _ _ _ _ _ _ S k) as Hk. rewrite E in Hk. cbn in Hk. subst l. apply hl_lt in Hl. unfold num_versions. lia.
Qed.
(** The same for the batch that a commit of [m] versions returns: it speaks about these [m] versions only. *)
Theorem C74_versions_in_batch (ops : list op) st xs (sets : list value_set) roots b : run H ops = Ok (st, xs) ->
  put_value_sets H (store_reader st) sets (num_versions ops) = Ok (roots, b) ->
  let n := num_versions ops in let m := N.of_nat (length sets) in
  (forall nk nd, tb_nodes b !! nk = Some nd -> (n <= nk.1 < n + m)%N /\ links_back nk nd) /\
  (forall s nk, (s, nk) ∈ tb_stale b -> (nk.1 < s)%N /\ (n <= s < n + m)%N) /\
  (forall v k x, tb_values b !! (v, k) = Some x -> (n <= v < n + m)%N).
Proof.
  intros R P n m. apply run_inv in R as [_ S]. destruct (commit_batchB H 0 _ _ _ _ _ sets S) as (Tn & b' & pfss & P1 & _ & BO & _).
  change (N.of_nat (length (history ops))) with (num_versions ops) in P1. rewrite P in P1. injection P1 as _ <-. clear P.
  set (tr := (xrun H tb0 ops).1) in *. set (b1 := (xrun H tb0 ops).2) in *.
  assert (Vn : forall x, x ∈ trn tr b1 sets -> (n <= vs_v x < n + m)%N).
  { intros x (i & E)%elem_of_list_lookup. pose proof (lookup_lt_Some _ _ _ E) as L. rewrite trn_length in L.
    apply (trn_mapsB H 0 _ _ _ _ _ _ S) in E as [-> _]. unfold n, m, num_versions. lia. }
  assert (TT : forall x, x ∈ trn tr b1 sets -> Tr (tr ++ trn tr b1 sets) (last_bt b1 (trn tr b1 sets))).
  { intros x Hx. destruct Tn as [[E _]|T]; [|done]. apply app_eq_nil in E as [_ E]. rewrite E in Hx. by apply elem_of_nil in Hx. }
  split_and!.
  - intros nk nd E. apply (bo_nodes _ _ _ _ _ BO) in E as (x & Hx & N). split; [destruct N as [-> _]; by apply Vn|].
    eapply nodes_back; [by eapply TT| |exact N]. set_solver.
  - intros s nk E. apply (bo_stale _ _ _ _ _ BO) in E as (x & Hx & -> & Sx). split; [|by apply Vn].
    pose proof (tr_inv H _ _ (TT x Hx)) as ((_ & T2 & _) & _). apply (T2 x nk); [set_solver|done].
  - intros v k x E. rewrite (bo_values _ _ _ _ _ BO) in E. apply bvals_lookup in E; [|intros; apply lookup_empty]. rewrite lookup_empty in E.
    destruct E as [E|E]; [|done]. apply hl_lt in E. exact E.
Qed.

(** *** C75 *)
Lemma run_snoc_inv ops o st xs : run H (ops ++ [o]) = Ok (st, xs) -> exists st1 xs1 x, run H ops = Ok (st1, xs1) /\ step H st1 (num_versions ops) o = Ok (st, x).
Proof.
  intros R. unfold run in R. rewrite run_from_app in R. fold (run H ops) in R. destruct (run H ops) as [[st1 xs1]| |]; [|done..]. rewrite bind_Ok in R.
  cbn [run_from] in R. rewrite N.add_0_l in R. destruct (step H st1 (num_versions ops) o) as [[st2 x]| |] eqn:E; [|done..]. rewrite !bind_Ok in R.
  injection R as -> _. eauto.
Qed.
Lemma floor_snoc ops o : Driver.floor (ops ++ [o]) = match o with Purge l => N.max (Driver.floor ops) (N.min l (num_versions ops - 1)) | _ => Driver.floor ops end.
Proof.
  unfold Driver.floor. rewrite fold_left_app. cbn [fold_left].
  assert (G : forall f n, (fold_left floor_step ops (f, n)).2 = (n + num_versions ops)%N).
  { clear. induction ops as [|o ops IH]; intros f n; [unfold num_versions; cbn; lia|].
    change (o :: ops) with ([o] ++ ops). rewrite num_versions_app. cbn [app fold_left]. unfold floor_step at 2. destruct o; rewrite IH; unfold num_versions, history; cbn [flat_map op_sets]; rewrite ?app_nil_r; cbn [length fst snd]; lia. }
  unfold floor_step at 1. destruct o; [done..|]. cbn [fst]. rewrite G. by rewrite N.add_0_l.
Qed.
Lemma floor_lt ops : (0 < num_versions ops)%N -> (Driver.floor ops < num_versions ops)%N.
Proof. intros L. destruct (latest_readable ops) as [A _]; lia. Qed.
Lemma write_batch_inv st b st' : write_tree_update_batch st b = Ok st' ->
  exists h, write_values (st_history st) (sorted_values (tb_values b)) = Ok h /\ st' = mkStore (tb_nodes b ∪ st_nodes st) (tb_stale b ∪ st_stale st) h (st_overwrite st).
Proof.
  unfold write_tree_update_batch, write_node_batch. destruct (assert_ _); [|done..]. rewrite bind_Ok. destruct (write_values _ _) as [h| |]; [|done..]. rewrite !bind_Ok.
  destruct (ensure_ _ _); [|done..]. rewrite bind_Ok. cbn. intros [= <-]. by exists h.
Qed.
Lemma write_values_some l : forall h h', write_values h l = Ok h' -> (forall k, h !! k <> Some []) -> forall k, h' !! k <> Some [].
Proof.
  induction l as [|[[v k0] x] l IH]; intros h h'; cbn [write_values]; [by intros [= <-]|].
  destruct (put_value_hist h v k0 x) as [h1| |] eqn:E; [|done..]. rewrite bind_Ok. intros W Hh. apply (IH _ _ W). intros k.
  assert (G : forall l, l <> [] -> <[k0 := l]> h !! k <> Some []).
  { intros l0 Ne. destruct (decide (k0 = k)) as [->|D]; [rewrite lookup_insert; congruence|by rewrite lookup_insert_ne]. }
  assert (A : forall (l : list (version * option value)) y, l ++ [y] <> []) by (intros l0 y F; by apply app_eq_nil in F as [_ ?]).
  unfold put_value_hist in E. destruct (h !! k0) as [l0|]; [|injection E as <-; by apply G].
  destruct (rev l0) as [|[lv0 y] r]; [injection E as <-; by apply G|]. destruct (v ?= lv0)%N; [injection E as <-; by apply G|done|injection E as <-; by apply G].
Qed.
Lemma purge_loop_hist l : forall st st', purge_loop st l = Ok st' -> st_history st' = st_history st.
Proof.
  induction l as [|lg l IH]; intros st st'; cbn [purge_loop]; [by intros [= <-]|].
  destruct (ensure_ _ _); [|done..]. rewrite bind_Ok. intros E. by apply IH in E.
Qed.
(** the stale indices are exactly those above the oldest readable version; no history is empty *)
Lemma stale_above ops : forall st xs, run H ops = Ok (st, xs) -> (forall s nk, (s, nk) ∈ st_stale st -> (Driver.floor ops < s)%N) /\ forall k, st_history st !! k <> Some [].
Proof.
  induction ops as [|o ops IH] using rev_ind; intros st xs R; [cbn in R; injection R as <- _; cbn; split; [intros s nk Hs; by apply elem_of_empty in Hs|intros k; by rewrite lookup_empty]|].
  pose proof R as R'. apply run_snoc_inv in R as (st1 & xs1 & x & R & St). destruct (IH _ _ R) as [IS IH']. clear IH. rewrite floor_snoc.
  assert (Cm : (forall l, o <> Purge l) -> forall b, write_tree_update_batch st1 b = Ok st -> (forall s nk, (s, nk) ∈ tb_stale b -> (num_versions ops <= s)%N /\ (nk.1 < s)%N) ->
     (forall s nk, (s, nk) ∈ st_stale st -> (Driver.floor ops < s)%N) /\ forall k, st_history st !! k <> Some []).
  { intros Hp b W Hb. apply write_batch_inv in W as (h & W & ->). cbn. split; [|by eapply write_values_some].
    intros s nk [E|E]%elem_of_union; [|by eapply IS]. apply Hb in E as [E1 E2].
    destruct (decide (num_versions ops = 0%N)) as [Z|Z]; [|pose proof (floor_lt ops); lia].
    assert (Driver.floor ops = 0%N) as ->; [|lia]. clear -Z. revert Z. induction ops as [|o ops IH] using rev_ind; [done|].
    rewrite num_versions_app. intros Z. rewrite floor_snoc, IH by lia. destruct o; lia. }
  apply run_inv in R as [_ S]. destruct (commit_batchB H 0 _ _ _ _ _ (op_sets o) S) as (Tn & b' & pfss & P1 & P2 & BO & _).
  assert (Bs : forall s nk, (s, nk) ∈ tb_stale b' -> (num_versions ops <= s)%N /\ (nk.1 < s)%N).
  { intros s nk (y & Hy & -> & Sy)%(bo_stale _ _ _ _ _ BO). split.
    - apply elem_of_list_lookup in Hy as (i & E). apply (trn_mapsB H 0 _ _ _ _ _ _ S) in E as [-> _]. unfold num_versions. lia.
    - destruct Tn as [[E _]|T]; [apply app_eq_nil in E as [_ E]; rewrite E in Hy; by apply elem_of_nil in Hy|]. pose proof (tr_inv H _ _ T) as ((_ & T2 & _) & _).
      apply (T2 y nk); [set_solver|done]. }
  change (N.of_nat (length (history ops))) with (num_versions ops) in P1, P2.
  destruct o as [sets|sets|l]; cbn [step op_sets] in *.
  - rewrite P1, bind_Ok in St. destruct (write_tree_update_batch st1 b') as [s2| |] eqn:W; [|done..]. rewrite bind_Ok in St. injection St as -> _. by apply (Cm ltac:(done) b').
  - rewrite P2, bind_Ok in St. destruct (write_tree_update_batch st1 b') as [s2| |] eqn:W; [|done..]. rewrite bind_Ok in St. injection St as -> _. by apply (Cm ltac:(done) b').
  - destruct (purge_stale_nodes st1 l) as [s2| |] eqn:W; [|done..]. rewrite bind_Ok in St. injection St as -> _.
    unfold purge_stale_nodes in W. rewrite (purge_loop_hist _ _ _ W). split; [|done]. intros s nk Hs. destruct (purge_loop_stale _ _ _ W _ Hs) as [A B].
    assert (~ (s <= l)%N) as Nl by (intros L; apply B; apply elem_of_elements, elem_of_filter; done). specialize (IS s nk A).
    lia.
Qed.
(** Two histories with the same commits and the same oldest readable version leave the same store, whenever, however
    often and with whatever versions it was purged. *)
Theorem C75_purge_schedule_irrelevant (ops1 ops2 : list op) st1 xs1 st2 xs2 : run H ops1 = Ok (st1, xs1) -> run H ops2 = Ok (st2, xs2) ->
  drop_purges ops1 = drop_purges ops2 -> Driver.floor ops1 = Driver.floor ops2 -> st1 = st2.
Proof.
  intros R1 R2 E F. destruct (stale_above _ _ _ R1) as [A1 B1]. destruct (stale_above _ _ _ R2) as [A2 B2].
  apply run_inv in R1 as [_ S1]. apply run_inv in R2 as [_ S2].
  assert (Ex : xrun H tb0 ops1 = xrun H tb0 ops2) by (rewrite <- (drop_purges_xrun H ops1), <- (drop_purges_xrun H ops2); by rewrite E).
  assert (Eh : history ops1 = history ops2) by (rewrite <- (drop_purges_history ops1), <- (drop_purges_history ops2); by rewrite E).
  rewrite Ex, Eh, F in S1. rewrite F in A1. clear F. set (f := Driver.floor ops2) in *. clearbody f. destruct (xrun H tb0 ops2) as [tr b]. cbn [fst snd] in *.
  assert (Es : st_stale st1 = st_stale st2).
  { apply set_eq. intros [s nk]. split; intros Hs.
    - apply (si_floor _ _ _ _ _ _ S2); [by apply (si_stale _ _ _ _ _ _ S1)|by eapply A1].
    - apply (si_floor _ _ _ _ _ _ S1); [by apply (si_stale _ _ _ _ _ _ S2)|by eapply A2]. }
  assert (En : st_nodes st1 = st_nodes st2).
  { apply map_eq. intros nk. apply option_eq. intros nd. rewrite (si_nodes _ _ _ _ _ _ S1), (si_nodes _ _ _ _ _ _ S2). by rewrite Es. }
  assert (Ei : st_history st1 = st_history st2).
  { apply map_eq. intros k. pose proof (si_hist _ _ _ _ _ _ S1 k) as H1. pose proof (si_hist _ _ _ _ _ _ S2 k) as H2. specialize (B1 k). specialize (B2 k). rewrite <- H2 in H1.
    destruct (st_history st1 !! k) as [l1|], (st_history st2 !! k) as [l2|]; cbn in H1; congruence. }
  pose proof (si_ov _ _ _ _ _ _ S1). pose proof (si_ov _ _ _ _ _ _ S2). destruct st1, st2. cbn in *. congruence.
Qed.
(** In particular: a purge up to [l] is a purge up to [k] followed by one up to [l], for k below l; the same purge again changes nothing. *)
Theorem C75_purge_twice (ops more : list op) st1 xs1 st2 xs2 (k l : version) : (k <= l)%N ->
  run H (ops ++ Purge k :: Purge l :: more) = Ok (st1, xs1) -> run H (ops ++ Purge l :: more) = Ok (st2, xs2) -> st1 = st2.
Proof.
  intros L R1 R2. eapply C75_purge_schedule_irrelevant; [exact R1|exact R2|unfold drop_purges; by rewrite !List.filter_app|].
  unfold Driver.floor. rewrite !fold_left_app. cbn [fold_left]. f_equal. f_equal. unfold floor_step. cbn [fst snd]. f_equal. lia.
Qed.
End versions.

(** Beside them: the demo history with its purge moved to the end, done in two steps, leaves the same store; and what its
    store says about versions. *)
Definition demo_late : list op :=
  [ Commit [ [(K00, Some va); (K80, Some vb)]; [(K00, Some vb); (KC0, Some vc)] ];
    CommitP [ [(K80, None)] ];
    Commit [ [] ];
    Commit [ [(K80, Some va)] ];
    Purge 1; Purge 2; Purge 2; Purge 0 ].
Example demo_late_same (H : list byte -> bytes32) st1 xs1 st2 xs2 : run H demo = Ok (st1, xs1) -> run H demo_late = Ok (st2, xs2) -> st1 = st2.
Proof. intros R1 R2. eapply (C75_purge_schedule_irrelevant H demo demo_late); [exact R1|exact R2|reflexivity|reflexivity]. Qed.
Example demo_versions_bound (H : list byte -> bytes32) st xs nk nd : run H demo = Ok (st, xs) -> st_nodes st !! nk = Some nd -> (nk.1 < 5)%N /\ links_back nk nd.
Proof. intros R E. destruct (C74_versions_in_store H demo st xs R) as [A _]. exact (A nk nd E). Qed.
