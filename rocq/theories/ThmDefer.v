(** C76: node batches, merging update batches, and writing several commits at once. *)
From Verif Require Import Base Spec NodeType ProofDef TreeCache Tree Mock Driver NodeBatch KeyFacts SmtFacts ProofFacts ReadFacts VersionFacts KeyOrder ValueFacts StoreFacts DriverFacts DriverFacts2 ThmProof ThmStore ThmStore2 ThmCrash ThmVersions Requests RequestFacts Demo.
From Coq Require Import Lia Sorted.
Local Opaque Spec.smt.

(** *** Specification *)
(** A reader that looks into a batch kept in memory first, and then into [rd]: of the values of a key it takes the newest
    one not after the version asked for. *)
Definition overlay_of (rd : reader) (b : tree_batch) (rd' : reader) : Prop :=
  (forall nk, rd_node rd' nk = match tb_nodes b !! nk with Some n => Some n | None => rd_node rd nk end) /\
  (forall w k, (exists v x, tb_values b !! (v, k) = Some x /\ (v <= w)%N /\ (forall v' x', tb_values b !! (v', k) = Some x' -> (v' <= w)%N -> (v' <= v)%N) /\
                   rd_value rd' w k = x) \/
               ((forall v x, tb_values b !! (v, k) = Some x -> (w < v)%N) /\ rd_value rd' w k = rd_value rd w k)).
(** Clients that keep update batches in memory, merge them, and write them later. *)
Inductive dop : Type :=
| DCommit (sets : list value_set) | DCommitP (sets : list value_set)  (* read through the overlay, merge the batch into the pending one *)
| DFlush                                                              (* write the pending batch *)
| DPurge (l : version).                                               (* purge the store below *)
(** The state: the store, the pending batch, the number of versions; and the outputs of the commits. *)
Inductive dstep (H : list byte -> bytes32) : store -> tree_batch -> version -> dop -> outcome (store * tree_batch * list out) -> Prop :=
| ds_commit st pend n sets rd : overlay_of (store_reader st) pend rd ->
    dstep H st pend n (DCommit sets) ('(roots, b) ← put_value_sets H rd sets n; Ok (st, tb_merge pend b, [OutCommit roots b]))
| ds_commitp st pend n sets rd : overlay_of (store_reader st) pend rd ->
    dstep H st pend n (DCommitP sets) ('(rp, b) ← put_value_sets_with_proof H rd sets n; Ok (st, tb_merge pend b, [OutCommitP rp b]))
| ds_flush st pend n : dstep H st pend n DFlush (st' ← write_tree_update_batch st pend; Ok (st', tb_empty, []))
| ds_purge st pend n l : dstep H st pend n (DPurge l) (st' ← purge_stale_nodes st l; Ok (st', pend, [])).
Definition dop_len (o : dop) : version := match o with DCommit s | DCommitP s => N.of_nat (length s) | _ => 0%N end.
Inductive druns (H : list byte -> bytes32) : store -> tree_batch -> version -> list dop -> outcome (store * tree_batch * list out) -> Prop :=
| dr_nil st pend n : druns H st pend n [] (Ok (st, pend, []))
| dr_ok st pend n o ops st' pend' x r : dstep H st pend n o (Ok (st', pend', x)) -> druns H st' pend' (n + dop_len o)%N ops r ->
    druns H st pend n (o :: ops) ('(st2, pend2, xs) ← r; Ok (st2, pend2, x ++ xs))
| dr_err st pend n o ops e : dstep H st pend n o (Err e) -> druns H st pend n (o :: ops) (Err e)
| dr_panic st pend n o ops : dstep H st pend n o Panic -> druns H st pend n (o :: ops) Panic.
(** What was done to the store so far, and what is pending, as operations of a client that writes at once. *)
Definition settle_step (fp : list op * list op) (o : dop) : list op * list op :=
  match o with
  | DCommit s => (fp.1, fp.2 ++ [Commit s])
  | DCommitP s => (fp.1, fp.2 ++ [CommitP s])
  | DFlush => (fp.1 ++ fp.2, [])
  | DPurge l => (fp.1 ++ [Purge l], fp.2)
  end.
Definition settle (dops : list dop) : list op * list op := fold_left settle_step dops ([], []).
Definition commit_outs (xs : list out) : list out := List.filter (fun x => match x with OutPurge => false | _ => true end) xs.

(** *** C76, node batches: they are maps, later entries win, and [merge] is union *)
Lemma extend_map_lookup {K V} `{Countable K} (l : list (K * V)) : forall (m : gmap K V) k, NoDup l.*1 ->
  extend_map m l !! k = match (list_to_map l : gmap K V) !! k with Some x => Some x | None => m !! k end.
Proof.
  induction l as [|[k0 x] l IH]; intros m k N; cbn [extend_map list_to_map foldr]; [by rewrite lookup_empty|]. cbn in N. apply NoDup_cons in N as [N1 N2].
  rewrite (IH _ _ N2). cbn [uncurry]. destruct (decide (k0 = k)) as [->|D].
  - rewrite lookup_insert. rewrite (not_elem_of_list_to_map_1 _ _ N1). by rewrite lookup_insert.
  - rewrite !lookup_insert_ne by done. done.
Qed.
Lemma extend_map_union {K V} `{Countable K} (m m2 : gmap K V) : extend_map m (map_to_list m2) = m2 ∪ m.
Proof.
  apply map_eq. intros k. rewrite extend_map_lookup by apply NoDup_fst_map_to_list. rewrite list_to_map_to_list.
  rewrite lookup_union. destruct (m2 !! k), (m !! k); done.
Qed.
Theorem C76_merge_is_union (b rhs : node_batch) (nk : nodekey) (vk : version * key) :
  nb_get_node (nb_merge b rhs) nk = match nb_get_node rhs nk with Some n => Some n | None => nb_get_node b nk end /\
  nb_values (nb_merge b rhs) !! vk = match nb_values rhs !! vk with Some x => Some x | None => nb_values b !! vk end.
Proof.
  unfold nb_merge, nb_extend, nb_get_node. cbn. rewrite !extend_map_union, !lookup_union.
  destruct (nb_nodes rhs !! nk), (nb_nodes b !! nk), (nb_values rhs !! vk), (nb_values b !! vk); done.
Qed.
Theorem C76_node_batch_map (b : node_batch) (nk nk' : nodekey) (n : node) (v : version) (k : key) (x : value) (vk : version * key) :
  (nb_insert_node b nk n).1 = nb_get_node b nk /\
  nb_get_node (nb_insert_node b nk n).2 nk' = (if decide (nk = nk') then Some n else nb_get_node b nk') /\
  nb_values (nb_insert_node b nk n).2 = nb_values b /\
  nb_values (nb_insert_value b v k x) !! vk = (if decide ((v, k) = vk) then Some (Some x) else nb_values b !! vk) /\
  nb_nodes (nb_insert_value b v k x) = nb_nodes b /\
  (nb_is_empty b = true <-> (forall nk, nb_get_node b nk = None) /\ forall vk, nb_values b !! vk = None) /\
  nb_is_empty (nb_clear b) = true.
Proof.
  unfold nb_get_node, nb_insert_node, nb_insert_value. cbn. split_and!; try done.
  - case_decide as D; [rewrite D; apply lookup_insert|by apply lookup_insert_ne].
  - case_decide as D; [rewrite D; apply lookup_insert|by apply lookup_insert_ne].
  - unfold nb_is_empty. rewrite andb_true_iff, !bool_decide_eq_true. split.
    + intros [-> ->]. split; intros; apply lookup_empty.
    + intros [A B]. split; apply map_eq; intros i; [by rewrite A, lookup_empty|by rewrite B, lookup_empty].
Qed.

(** *** writing a merged batch *)
Lemma tb_merge_eq b1 b2 : tb_merge b1 b2 = mkBatch (tb_nodes b2 ∪ tb_nodes b1) (tb_values b2 ∪ tb_values b1) (tb_stale b2 ∪ tb_stale b1) (tb_stats b1 ++ tb_stats b2).
Proof. unfold tb_merge, nb_merge, nb_extend. cbn. by rewrite !extend_map_union. Qed.
Lemma write_values_app l1 : forall h l2, write_values h (l1 ++ l2) = (h' ← write_values h l1; write_values h' l2).
Proof.
  induction l1 as [|[[v k] x] l1 IH]; intros h l2; cbn [app write_values]; [by rewrite bind_Ok|].
  destruct (put_value_hist h v k x) as [h1| |]; [|done..]. rewrite !bind_Ok. apply IH.
Qed.
Definition vk_lt (a b : (version * key) * option value) : Prop := vk_le a b /\ a.1 <> b.1.
Lemma vk_le_key a b : vk_le a b -> vk_le b a -> a.1 = b.1.
Proof.
  destruct a as [[v k] x], b as [[w l] y]. rewrite !vk_le_spec. cbn. intros [A|[-> A]] [B|[E B]]; [lia|subst; lia|lia|]. f_equal. by apply key_le_antisym.
Qed.
Global Instance vk_lt_antisymm : AntiSymm (=) vk_lt.
Proof. intros a b [A1 A2] [B1 _]. destruct A2. by apply vk_le_key. Qed.
Lemma strict_sorted l : StronglySorted vk_le l -> NoDup l.*1 -> StronglySorted vk_lt l.
Proof.
  induction 1 as [|a l S IH F]; cbn; [constructor|]. intros [N1 N2]%NoDup_cons. constructor; [by apply IH|]. rewrite Forall_forall in *. intros b Hb. split; [by apply F|].
  intros E. apply N1. rewrite E. by apply elem_of_list_fmap_1.
Qed.
Lemma sorted_values_strict m : StronglySorted vk_lt (sorted_values m).
Proof. apply strict_sorted; [apply StronglySorted_merge_sort; apply _|]. rewrite sorted_values_perm. apply NoDup_fst_map_to_list. Qed.
Lemma StronglySorted_app2 {A} (R : A -> A -> Prop) l1 l2 : StronglySorted R l1 -> StronglySorted R l2 -> (forall a b, a ∈ l1 -> b ∈ l2 -> R a b) -> StronglySorted R (l1 ++ l2).
Proof.
  intros S1 S2 X. induction S1 as [|a l1 S1 IH F]; cbn; [done|]. constructor.
  - apply IH. intros b c Hb Hc. apply X; [by right|done].
  - apply Forall_app. split; [done|]. apply Forall_forall. intros c Hc. apply X; [by left|done].
Qed.
(** the values of the later batch come after those of the earlier one *)
Definition vals_before (m1 m2 : gmap (version * key) (option value)) : Prop := forall v1 k1 x1 v2 k2 x2, m1 !! (v1, k1) = Some x1 -> m2 !! (v2, k2) = Some x2 -> (v1 < v2)%N.
Lemma sorted_values_union m1 m2 : vals_before m1 m2 -> sorted_values (m2 ∪ m1) = sorted_values m1 ++ sorted_values m2.
Proof.
  intros B. assert (D : m2 ##ₘ m1).
  { apply map_disjoint_spec. intros [v k] x y E2 E1. specialize (B _ _ _ _ _ _ E1 E2). lia. }
  apply (StronglySorted_unique vk_lt).
  - apply sorted_values_strict.
  - apply StronglySorted_app2; [apply sorted_values_strict..|]. intros [[v1 k1] x1] [[v2 k2] x2] E1%elem_of_sorted_values E2%elem_of_sorted_values.
    specialize (B _ _ _ _ _ _ E1 E2). split; [apply vk_le_spec; by left|]. cbn. intros [= -> _]. lia.
  - rewrite !sorted_values_perm. apply NoDup_Permutation; [apply NoDup_map_to_list| |].
    + apply NoDup_app. split; [apply NoDup_map_to_list|]. split; [|apply NoDup_map_to_list]. intros [vk x] E1%elem_of_map_to_list E2%elem_of_map_to_list.
      by apply (map_disjoint_spec m2 m1) with vk x x in D.
    + intros [vk x]. rewrite elem_of_app, !elem_of_map_to_list, lookup_union_Some by done. naive_solver.
Qed.
Lemma write_merged st b1 b2 st1 st2 : vals_before (tb_values b1) (tb_values b2) -> write_tree_update_batch st b1 = Ok st1 -> write_tree_update_batch st1 b2 = Ok st2 ->
  write_tree_update_batch st (tb_merge b1 b2) = Ok st2.
Proof.
  intros V. rewrite tb_merge_eq. unfold write_tree_update_batch, write_node_batch. cbn [tb_nodes tb_values tb_stale tb_stats].
  rewrite (sorted_values_union _ _ V), write_values_app.
  destruct (st_overwrite st || _) eqn:A1; [|done]. cbn [assert_]. rewrite !bind_Ok. destruct (write_values (st_history st) _) as [h1| |]; [|done..]. rewrite !bind_Ok. cbn [st_stale st_nodes st_history st_overwrite].
  destruct (bool_decide (tb_stale b1 ∩ st_stale st = ∅)) eqn:D1; [|done]. cbn [ensure_]. rewrite bind_Ok. intros [= <-]. cbn [st_stale st_nodes st_history st_overwrite].
  destruct (st_overwrite st || bool_decide (dom (tb_nodes b2) ∩ dom (tb_nodes b1 ∪ st_nodes st) = ∅)) eqn:A2; [|done]. cbn [assert_]. rewrite !bind_Ok. destruct (write_values h1 _) as [h2| |]; [|done..]. rewrite !bind_Ok. cbn [st_stale st_nodes st_history st_overwrite].
  destruct (bool_decide (tb_stale b2 ∩ (tb_stale b1 ∪ st_stale st) = ∅)) eqn:D2; [|done]. cbn [ensure_]. rewrite bind_Ok. intros [= <-].
  apply bool_decide_eq_true in D1, D2.
  assert (A : st_overwrite st || bool_decide (dom (tb_nodes b2 ∪ tb_nodes b1) ∩ dom (st_nodes st) = (∅ : gset nodekey)) = true).
  { destruct (st_overwrite st); [done|]. cbn [orb] in *. apply bool_decide_eq_true in A1, A2. apply bool_decide_eq_true. rewrite dom_union_L in *. set_solver. }
  rewrite A. cbn [assert_]. rewrite !bind_Ok. cbn [st_stale st_nodes st_history st_overwrite].
  rewrite (bool_decide_eq_true_2 ((tb_stale b2 ∪ tb_stale b1) ∩ st_stale st = ∅)) by set_solver. cbn [ensure_]. rewrite bind_Ok. f_equal. f_equal; [by rewrite <- (assoc_L (∪))|by rewrite <- (assoc_L (∪))].
Qed.

(** *** readers that answer alike *)
Definition same_reads (rd rd' : reader) : Prop := (forall nk, rd_node rd nk = rd_node rd' nk) /\ forall w k, rd_value rd w k = rd_value rd' w k.
Lemma runp_same rd rd' {A} (p : prog A) : same_reads rd rd' -> runp rd p = runp rd' p.
Proof. intros [N V]. induction p as [o|nk k IH|w x k IH]; cbn; [done|rewrite N; apply IH|rewrite V; apply IH]. Qed.

(** an overlay as a function *)
Definition batch_vals (b : tree_batch) (w : version) (k : key) : list (version * option value) := filter (fun e => (e.1 <= w)%N) (kl (sorted_values (tb_values b)) k).
Definition overlay (rd : reader) (b : tree_batch) : reader :=
  mkReader (fun nk => match tb_nodes b !! nk with Some n => Some n | None => rd_node rd nk end)
           (fun w k => match last (batch_vals b w k) with Some (_, x) => x | None => rd_value rd w k end) (rd_rightmost rd).
Lemma overlay_ok rd b : overlay_of rd b (overlay rd b).
Proof.
  split; [done|]. intros w k. cbn.
  assert (E : forall v x, (v, x) ∈ batch_vals b w k <-> tb_values b !! (v, k) = Some x /\ (v <= w)%N).
  { intros v x. unfold batch_vals. rewrite elem_of_list_filter, elem_of_kl, elem_of_sorted_values. cbn. naive_solver. }
  destruct (last (batch_vals b w k)) as [[v x]|] eqn:L.
  - left. exists v, x. pose proof L as L'. apply last_Some_elem_of, E in L as [L1 L2]. split; [done|]. split; [done|]. split; [|done].
    intros v' x' E' Lw. assert (Hin : (v', x') ∈ batch_vals b w k) by (by apply E).
    assert (Srt : StronglySorted vlt (batch_vals b w k)).
    { unfold batch_vals. pose proof (kl_sorted_values (tb_values b) k) as Sk. revert Sk. generalize (kl (sorted_values (tb_values b)) k). clear. intros l.
      induction 1 as [|a l Sl IH F]; [constructor|]. rewrite filter_cons. case_decide; [|done]. constructor; [done|]. rewrite Forall_forall in *. intros c [_ Hc]%elem_of_list_filter. by apply F. }
    destruct (exists_last (l := batch_vals b w k)) as (l0 & e & El); [intros Z; rewrite Z in Hin; by apply elem_of_nil in Hin|].
    rewrite El, last_snoc in L'. injection L' as ->. rewrite El in Hin, Srt. apply elem_of_app in Hin as [Hin|Hin%elem_of_list_singleton]; [|injection Hin as -> _; lia].
    apply (StronglySorted_app_mid _ _ _ _ _ Srt) in Hin. unfold vlt in Hin. cbn in Hin. lia.
  - right. split; [|done]. intros v x Ev. apply last_None in L. destruct (decide (v <= w)%N) as [Lv|]; [|lia].
    assert (Hin : (v, x) ∈ batch_vals b w k) by (by apply E). rewrite L in Hin. by apply elem_of_nil in Hin.
Qed.

Section defer.
Context (H : list byte -> bytes32).
Notation run := (run H).
Notation step := (step H).
Notation run_from := (run_from H).

(** *** commits on top of a store, and their merged batch *)
Definition is_commit (o : op) : Prop := is_purge o = false.
Definition merged (xs : list out) : tree_batch := fold_left tb_merge (omap out_batch xs) tb_empty.
Lemma merged_snoc xs x b : out_batch x = Some b -> merged (xs ++ [x]) = tb_merge (merged xs) b.
Proof. intros E. unfold merged. rewrite omap_app. cbn. rewrite E. by rewrite fold_left_app. Qed.
Lemma write_empty st : write_tree_update_batch st tb_empty = Ok st.
Proof.
  unfold write_tree_update_batch, write_node_batch. cbn [tb_nodes tb_values tb_stale tb_empty]. rewrite dom_empty_L.
  rewrite (bool_decide_eq_true_2 (∅ ∩ _ = _)) by set_solver. rewrite orb_true_r. cbn [assert_]. rewrite bind_Ok.
  assert (sorted_values ∅ = []) as -> by (unfold sorted_values; by rewrite map_to_list_empty). cbn [write_values]. rewrite !bind_Ok. cbn [st_stale st_nodes st_history st_overwrite].
  rewrite (bool_decide_eq_true_2 (∅ ∩ _ = _)) by set_solver. cbn [ensure_]. rewrite bind_Ok. destruct st. cbn. f_equal. f_equal; [by rewrite (left_id_L ∅ (∪))|set_solver].
Qed.
Lemma step_write st n o st' x : is_commit o -> step st n o = Ok (st', x) -> exists b, out_batch x = Some b /\ write_tree_update_batch st b = Ok st'.
Proof.
  intros C. destruct o as [sets|sets|l]; [..|done]; cbn [Driver.step].
  - destruct (put_value_sets _ _ _ _) as [[r b]| |] eqn:E; [|done..]. rewrite bind_Ok. destruct (write_tree_update_batch st b) as [s| |] eqn:W; [|done..]. rewrite bind_Ok.
    intros [= <- <-]. by exists b.
  - destruct (put_value_sets_with_proof _ _ _ _) as [[r b]| |] eqn:E; [|done..]. rewrite bind_Ok. destruct (write_tree_update_batch st b) as [s| |] eqn:W; [|done..]. rewrite bind_Ok.
    intros [= <- <-]. by exists b.
Qed.
Lemma bvals_app n s1 s2 : bvals n (s1 ++ s2) ∅ = bvals (n + N.of_nat (length s1)) s2 ∅ ∪ bvals n s1 ∅.
Proof.
  apply map_eq. intros [w k]. apply option_eq. intros x. rewrite lookup_union_Some_raw. rewrite !bvals_lookup by (intros; apply lookup_empty). rewrite !lookup_empty, hl_app, elem_of_app.
  assert (N : bvals (n + N.of_nat (length s1)) s2 ∅ !! (w, k) = None <-> forall x, (w, x) ∉ hl (n + N.of_nat (length s1)) s2 k).
  { split.
    - intros E y Hy. assert (F : bvals (n + N.of_nat (length s1)) s2 ∅ !! (w, k) = Some y); [|congruence]. apply bvals_lookup; [intros; apply lookup_empty|by left].
    - intros F. destruct (bvals _ s2 ∅ !! (w, k)) as [y|] eqn:E; [|done]. apply bvals_lookup in E; [|intros; apply lookup_empty]. destruct E as [E|E]; [by apply F in E|by rewrite lookup_empty in E]. }
  rewrite N. split.
  - intros [[E|E]|E]; [|by left; left|done]. right. split; [|by left]. intros y Hy. apply hl_lt in E, Hy. lia.
  - intros [[E|E]|[_ [E|E]]]; naive_solver.
Qed.
Lemma run_split fl pn st xf st' xp : run fl = Ok (st, xf) -> run_from st (num_versions fl) pn = Ok (st', xp) -> run (fl ++ pn) = Ok (st', xf ++ xp).
Proof. intros R1 R2. unfold Driver.run in *. rewrite run_from_app, R1, bind_Ok. rewrite N.add_0_l, R2, bind_Ok. done. Qed.
Lemma pending_ok fl st xf : run fl = Ok (st, xf) -> forall pn st' xp, Forall is_commit pn -> run_from st (num_versions fl) pn = Ok (st', xp) ->
  write_tree_update_batch st (merged xp) = Ok st' /\ tb_values (merged xp) = bvals (num_versions fl) (history pn) ∅.
Proof.
  intros R. induction pn as [|o pn IH] using rev_ind; intros st' xp F P.
  { cbn in P. injection P as <- <-. split; [apply write_empty|done]. }
  apply Forall_app in F as [F Fo%Forall_inv]. rewrite run_from_app in P. destruct (run_from st (num_versions fl) pn) as [[st1 xp1]| |] eqn:P1; [|done..]. rewrite bind_Ok in P.
  destruct (IH st1 xp1 F eq_refl) as [W V]. clear IH. pose proof (run_split fl pn st xf st1 xp1 R P1) as R1. pose proof R1 as R1'.
  apply run_inv in R1 as [_ S]. rewrite history_app in S.
  destruct (step_ok H _ _ _ _ o S) as (st2 & x & Sx & Ox & _).
  cbn [Driver.run_from] in P. assert (En : (num_versions fl + num_versions pn)%N = N.of_nat (length (history fl ++ history pn))) by (unfold num_versions; rewrite app_length; lia).
  rewrite En, Sx, !bind_Ok in P. injection P as <- <-.
  destruct (step_write _ _ _ _ _ Fo Sx) as (b & Eb & Wb). rewrite (merged_snoc _ _ _ Eb).
  destruct (out_batch_ok H _ _ _ _ _ Ox Eb) as [BO _]. pose proof (bo_values _ _ _ _ _ BO) as Vb. rewrite <- En in Vb. split.
  - eapply write_merged; [|exact W|exact Wb]. intros v1 k1 x1 v2 k2 x2. rewrite V, Vb. rewrite !bvals_lookup by (intros; apply lookup_empty). rewrite !lookup_empty.
    intros [E1|E1] [E2|E2]; try done. apply hl_lt in E1, E2. unfold num_versions in *. lia.
  - rewrite tb_merge_eq. cbn [tb_values]. rewrite V, Vb. rewrite history_app, bvals_app. cbn [history flat_map]. rewrite app_nil_r. done.
Qed.
Lemma find_value_app w l1 l2 : find_value w (l1 ++ l2) = match List.find (fun e => (e.1 <=? w)%N) l1 with Some e => e.2 | None => find_value w l2 end.
Proof. induction l1 as [|[v x] l1 IH]; [done|]. cbn. by destruct (v <=? w)%N. Qed.
Lemma find_newest w l : StronglySorted vlt l -> match List.find (fun e => (e.1 <=? w)%N) (rev l) with
  | Some e => e ∈ l /\ (e.1 <= w)%N /\ forall e', e' ∈ l -> (e'.1 <= w)%N -> (e'.1 <= e.1)%N
  | None => forall e, e ∈ l -> (w < e.1)%N end.
Proof.
  induction l as [|e l IH] using rev_ind; intros Srt; [cbn; intros e E; by apply elem_of_nil in E|]. rewrite rev_app_distr. cbn.
  specialize (IH (StronglySorted_app_l _ _ _ Srt)). destruct (e.1 <=? w)%N eqn:E.
  - apply N.leb_le in E. split; [set_solver|]. split; [done|]. intros e' [Hin| ->%elem_of_list_singleton]%elem_of_app _; [|done].
    apply (StronglySorted_app_mid _ _ _ _ _ Srt) in Hin. unfold vlt in Hin. lia.
  - apply N.leb_gt in E. destruct (List.find _ (rev l)) as [e0|].
    + destruct IH as (I1 & I2 & I3). split; [set_solver|]. split; [done|]. intros e' [Hin| ->%elem_of_list_singleton]%elem_of_app Le; [by apply I3|lia].
    + intros e' [Hin| ->%elem_of_list_singleton]%elem_of_app; [by apply IH|done].
Qed.
Lemma overlay_same fl pn st xf st' xp rd : run fl = Ok (st, xf) -> run_from st (num_versions fl) pn = Ok (st', xp) -> Forall is_commit pn ->
  overlay_of (store_reader st) (merged xp) rd -> same_reads rd (store_reader st').
Proof.
  intros R P F [ON OV]. destruct (pending_ok fl st xf R pn st' xp F P) as [W V]. pose proof (run_split _ _ _ _ _ _ R P) as R'.
  apply write_batch_inv in W as (h & _ & Est). split.
  - intros nk. rewrite ON, Est. cbn. rewrite lookup_union. destruct (tb_nodes (merged xp) !! nk), (st_nodes st !! nk); done.
  - intros w k. apply run_inv in R as [_ S]. apply run_inv in R' as [_ S']. rewrite (value_ok H _ _ _ _ _ w k S'), history_app, <- find_value_hl, hl_app, rev_app_distr, find_value_app.
    fold (num_versions fl) in *. rewrite N.add_0_l. pose proof (find_newest w (hl (num_versions fl) (history pn) k) (hl_sorted _ _ _)) as Fn.
    assert (Ev : forall v x, tb_values (merged xp) !! (v, k) = Some x <-> (v, x) ∈ hl (num_versions fl) (history pn) k).
    { intros v x. rewrite V, bvals_lookup by (intros; apply lookup_empty). rewrite lookup_empty. naive_solver. }
    unfold num_versions in Fn at 1. fold (num_versions fl) in Fn.
    destruct (List.find _ _) as [[v0 x0]|]; cbn [fst snd] in *.
    + destruct Fn as (F1 & F2 & F3). destruct (OV w k) as [(v & x & E & Lv & Mx & ->)|[No _]]; [|apply Ev, No in F1; lia].
      apply Ev in E. pose proof (F3 _ E Lv) as L1. apply Ev in F1. pose proof (Mx _ _ F1 F2) as L2. cbn in L1. assert (v = v0) as -> by lia.
      apply Ev in E. congruence.
    + destruct (OV w k) as [(v & x & E & Lv & _)|[_ ->]]; [apply Ev, Fn in E; cbn in E; lia|].
      rewrite (value_ok H _ _ _ _ _ w k S). by rewrite find_value_hl.
Qed.
(** *** the simulation *)
Lemma outs_unique ops : forall tb hist xs ys, outs_ok H tb hist ops xs -> outs_ok H tb hist ops ys -> xs = ys.
Proof.
  induction ops as [|o ops IH]; intros tb hist [|x xs] [|y ys]; cbn [outs_ok]; try done. intros [O1 R1] [O2 R2]. f_equal; [by eapply out_unique|by eapply IH].
Qed.
Lemma run_from_outs fl st xf pn st' xp : run fl = Ok (st, xf) -> run_from st (num_versions fl) pn = Ok (st', xp) -> outs_ok H (xrun H tb0 fl) (history fl) pn xp.
Proof.
  intros R P. apply run_inv in R as [_ S]. destruct (run_from_ok H pn st _ _ _ S) as (st2 & xs & P2 & O & _). fold (num_versions fl) in P2. rewrite P in P2. by injection P2 as <- <-.
Qed.
Lemma run_from_total fl st xf pn : run fl = Ok (st, xf) -> exists st' xp, run_from st (num_versions fl) pn = Ok (st', xp).
Proof. intros R. apply run_inv in R as [_ S]. destruct (run_from_ok H pn st _ _ _ S) as (st2 & xs & P2 & _). eauto. Qed.
Lemma commit_outs_app xs ys : commit_outs (xs ++ ys) = commit_outs xs ++ commit_outs ys.
Proof. apply List.filter_app. Qed.
Record dinv (fl pn : list op) (st : store) (pend : tree_batch) (n : version) (outs : list out) : Prop := {
  di_ex : exists xf st' xp, run fl = Ok (st, xf) /\ run_from st (num_versions fl) pn = Ok (st', xp) /\ pend = merged xp /\ outs = commit_outs (xf ++ xp);
  di_c : Forall is_commit pn;
  di_n : n = num_versions (fl ++ pn) }.
Lemma dinv_commit fl pn st pend n outs o rd : is_commit o -> dinv fl pn st pend n outs -> overlay_of (store_reader st) pend rd ->
  (exists roots b, put_value_sets H rd (op_sets o) n = Ok (roots, b) /\ (forall s, o = Commit s -> dinv fl (pn ++ [o]) st (tb_merge pend b) (n + N.of_nat (length (op_sets o)))%N (outs ++ [OutCommit roots b]))) /\
  (exists rp b, put_value_sets_with_proof H rd (op_sets o) n = Ok (rp, b) /\ (forall s, o = CommitP s -> dinv fl (pn ++ [o]) st (tb_merge pend b) (n + N.of_nat (length (op_sets o)))%N (outs ++ [OutCommitP rp b]))).
Proof.
  intros C [(xf & st' & xp & R & P & -> & ->) F En] Ov. pose proof (overlay_same _ _ _ _ _ _ _ R P F Ov) as Sm. pose proof (run_split _ _ _ _ _ _ R P) as R'.
  rewrite <- put_value_sets_p_ok, <- put_value_sets_with_proof_p_ok, !(runp_same _ _ _ Sm), put_value_sets_p_ok, put_value_sets_with_proof_p_ok.
  pose proof R' as R2. apply run_inv in R2 as [_ S]. destruct (commit_batchB H 0 _ _ _ _ _ (op_sets o) S) as (_ & b & pfss & P1 & P2 & _).
  fold (num_versions (fl ++ pn)) in P1, P2. rewrite <- En in P1, P2.
  assert (G : forall x st2, step st' n o = Ok (st2, x) -> out_batch x = Some b -> commit_outs [x] = [x] ->
     dinv fl (pn ++ [o]) st (tb_merge (merged xp) b) (n + N.of_nat (length (op_sets o)))%N (commit_outs (xf ++ xp) ++ [x])).
  { intros x st2 Sx Ex Cx. split.
    - exists xf, st2, (xp ++ [x]). split; [done|]. split; [|split; [by rewrite (merged_snoc _ _ _ Ex)|by rewrite app_assoc, (commit_outs_app (xf ++ xp)), Cx]].
      rewrite run_from_app, P, bind_Ok. cbn [Driver.run_from]. rewrite <- num_versions_app, <- En, Sx, !bind_Ok. done.
    - apply Forall_app. split; [done|]. by constructor.
    - rewrite En, !num_versions_app. unfold num_versions. cbn [history flat_map]. rewrite app_nil_r. lia. }
  destruct (step_ok H _ _ _ _ o S) as (st2 & x & Sx & _). fold (num_versions (fl ++ pn)) in Sx. rewrite <- En in Sx.
  split; eexists _, _; (split; [done|]); intros s ->; cbn [op_sets Driver.step] in *.
  - rewrite P1, bind_Ok in Sx. destruct (write_tree_update_batch st' b) as [s2| |] eqn:W; [|done..]. rewrite bind_Ok in Sx.
    apply (G _ s2); [|done..]. by rewrite P1, bind_Ok, W, bind_Ok.
  - rewrite P2, bind_Ok in Sx. destruct (write_tree_update_batch st' b) as [s2| |] eqn:W; [|done..]. rewrite bind_Ok in Sx.
    apply (G _ s2); [|done..]. by rewrite P2, bind_Ok, W, bind_Ok.
Qed.
Lemma dinv_step fl pn st pend n outs o r : dinv fl pn st pend n outs -> dstep H st pend n o r ->
  exists st' pend' x, r = Ok (st', pend', x) /\ dinv (settle_step (fl, pn) o).1 (settle_step (fl, pn) o).2 st' pend' (n + dop_len o)%N (outs ++ x).
Proof.
  intros I D. inversion D as [st1 pend1 n1 sets rd Ov|st1 pend1 n1 sets rd Ov|st1 pend1 n1|st1 pend1 n1 l]; subst; clear D; cbn [settle_step fst snd dop_len].
  - destruct (dinv_commit fl pn st pend n outs (Commit sets) rd ltac:(done) I Ov) as [(roots & b & P & G) _]. cbn [op_sets] in P. rewrite P, bind_Ok. eexists _, _, _. split; [done|]. by apply (G sets).
  - destruct (dinv_commit fl pn st pend n outs (CommitP sets) rd ltac:(done) I Ov) as [_ (roots & b & P & G)]. cbn [op_sets] in P. rewrite P, bind_Ok. eexists _, _, _. split; [done|]. by apply (G sets).
  - destruct I as [(xf & st' & xp & R & P & -> & ->) F ->]. destruct (pending_ok fl st xf R pn st' xp F P) as [W _]. rewrite W, bind_Ok. eexists _, _, _. split; [done|].
    rewrite app_nil_r, N.add_0_r. split; [|constructor|by rewrite app_nil_r].
    exists (xf ++ xp), st', []. split; [by eapply run_split|]. split; [done|]. split; [done|]. by rewrite app_nil_r.
  - destruct I as [(xf & st' & xp & R & P & -> & ->) F ->]. pose proof R as R2. apply run_inv in R2 as [_ S].
    destruct (step_ok H _ _ _ _ (Purge l) S) as (st1 & x & Sx & Ox & _). fold (num_versions fl) in Sx. destruct x; [done..|]. cbn [Driver.step] in Sx.
    pose proof (run_snoc H fl (Purge l) st xf st1 OutPurge R Sx) as R1.
    destruct (purge_stale_nodes st l) as [s2| |]; [|done..]. rewrite bind_Ok in Sx. injection Sx as ->. rewrite bind_Ok. eexists _, _, _. split; [done|]. rewrite app_nil_r, N.add_0_r.
    destruct (run_from_total _ _ _ pn R1) as (st2 & xp2 & P2).
    assert (xp2 = xp) as ->.
    { pose proof (run_from_outs _ _ _ _ _ _ R P) as O1. pose proof (run_from_outs _ _ _ _ _ _ R1 P2) as O2.
      rewrite history_app, app_nil_r, xrun_app in O2. cbn [xrun fold_left xop] in O2. by eapply outs_unique. }
    split; [|done|rewrite !num_versions_app; unfold num_versions; cbn; lia].
    exists (xf ++ [OutPurge]), st2, xp. split; [done|]. split; [done|]. split; [done|]. rewrite !commit_outs_app. cbn. by rewrite app_nil_r.
Qed.
Lemma druns_inv dops : forall fl pn st pend n outs r, dinv fl pn st pend n outs -> druns H st pend n dops r ->
  exists st' pend' xs n', r = Ok (st', pend', xs) /\ dinv (fold_left settle_step dops (fl, pn)).1 (fold_left settle_step dops (fl, pn)).2 st' pend' n' (outs ++ xs).
Proof.
  induction dops as [|o dops IH]; intros fl pn st pend n outs r I D; inversion D; subst; clear D.
  - eexists _, _, _, _. split; [done|]. rewrite app_nil_r. exact I.
  - match goal with Hd : dstep _ _ _ _ _ _ |- _ => destruct (dinv_step _ _ _ _ _ _ _ _ I Hd) as (st1 & pend1 & x1 & E & I1) end. injection E as -> -> ->.
    match goal with Hd : druns _ _ _ _ _ _ |- _ => destruct (IH _ _ _ _ _ _ _ I1 Hd) as (st2 & pend2 & xs & n2 & -> & I2) end.
    rewrite bind_Ok. eexists _, _, _, _. split; [done|]. cbn [fold_left]. rewrite <- app_assoc in I2. destruct (settle_step (fl, pn) o). exact I2.
  - match goal with Hd : dstep _ _ _ _ _ _ |- _ => destruct (dinv_step _ _ _ _ _ _ _ _ I Hd) as (st1 & pend1 & x1 & E & I1) end. done.
  - match goal with Hd : dstep _ _ _ _ _ _ |- _ => destruct (dinv_step _ _ _ _ _ _ _ _ I Hd) as (st1 & pend1 & x1 & E & I1) end. done.
Qed.
Lemma druns_exist dops : forall st pend n, exists r, druns H st pend n dops r.
Proof.
  induction dops as [|o dops IH]; intros st pend n; [eexists; constructor|].
  assert (Ds : exists r, dstep H st pend n o r).
  { destruct o as [sets|sets| |l]; eexists; [eapply ds_commit, overlay_ok|eapply ds_commitp, overlay_ok|apply ds_flush|apply ds_purge]. }
  destruct Ds as [[[[st1 pend1] x]|e|] Ds]; [|eexists; by apply dr_err|eexists; by apply dr_panic].
  destruct (IH st1 pend1 (n + dop_len o)%N) as [r Dr]. eexists. by eapply dr_ok.
Qed.

(** *** C76: a client that keeps the batches of any number of commits in memory, reading through them, and writes them
    merged, gets what a client gets that writes every batch at once. *)
(** Writing the merged batch of two successive commits is writing one after the other. *)
Theorem C76_merge_commits (ops : list op) st xs (sets1 sets2 : list value_set) r1 b1 st1 r2 b2 st2 : run ops = Ok (st, xs) ->
  put_value_sets H (store_reader st) sets1 (num_versions ops) = Ok (r1, b1) -> write_tree_update_batch st b1 = Ok st1 ->
  put_value_sets H (store_reader st1) sets2 (num_versions ops + N.of_nat (length sets1)) = Ok (r2, b2) -> write_tree_update_batch st1 b2 = Ok st2 ->
  write_tree_update_batch st (tb_merge b1 b2) = Ok st2.
Proof.
  intros R P1 W1 P2 W2. assert (P : run_from st (num_versions ops) [Commit sets1; Commit sets2] = Ok (st2, [OutCommit r1 b1; OutCommit r2 b2])).
  { cbn [Driver.run_from Driver.step op_sets]. rewrite P1, !bind_Ok, W1, !bind_Ok, P2, !bind_Ok, W2, !bind_Ok. done. }
  destruct (pending_ok _ _ _ R [Commit sets1; Commit sets2] _ _ ltac:(by repeat constructor) P) as [W _].
  assert (E : merged [OutCommit r1 b1; OutCommit r2 b2] = tb_merge b1 b2); [|by rewrite E in W].
  unfold merged. cbn [omap list_omap out_batch fold_left]. rewrite (tb_merge_eq tb_empty b1). cbn. rewrite !(right_id_L ∅ (∪)). by destruct b1.
Qed.
Definition dop_sets (o : dop) : list value_set := match o with DCommit s | DCommitP s => s | _ => [] end.
Lemma settle_history dops : forall fp, history ((fold_left settle_step dops fp).1 ++ (fold_left settle_step dops fp).2) = history (fp.1 ++ fp.2) ++ flat_map dop_sets dops.
Proof.
  induction dops as [|o dops IH]; intros fp; cbn [fold_left flat_map]; [by rewrite app_nil_r|]. rewrite IH, app_assoc. f_equal.
  destruct o; cbn [settle_step fst snd dop_sets]; rewrite ?app_nil_r, ?history_app; cbn [history flat_map op_sets]; rewrite ?app_nil_r, ?app_assoc; done.
Qed.
Theorem C76_deferred_writes (dops : list dop) : let fl := (settle dops).1 in let pn := (settle dops).2 in
  (exists r, druns H store_empty tb_empty 0 dops r) /\ history (fl ++ pn) = flat_map dop_sets dops /\
  forall r, druns H store_empty tb_empty 0 dops r -> exists st pend outs xf st' xp,
    r = Ok (st, pend, outs) /\
    (* the store below, and the store after one more flush, are those of the client who writes at once *)
    run fl = Ok (st, xf) /\ run (fl ++ pn) = Ok (st', xf ++ xp) /\ write_tree_update_batch st pend = Ok st' /\
    (* the commits returned the same roots, proofs and batches *)
    outs = commit_outs (xf ++ xp) /\
    (* and every readable version reads right, pending or not *)
    forall rd v, overlay_of (store_reader st) pend rd -> readable (fl ++ pn) v -> reader_reads_as H rd v (contents_at (flat_map dop_sets dops) v).
Proof.
  intros fl pn. pose proof (settle_history dops ([], [])) as Eh. cbn [fst snd app history flat_map] in Eh. fold (settle dops) in Eh. fold fl pn in Eh.
  split; [apply druns_exist|]. split; [exact Eh|]. intros r D.
  assert (I0 : dinv [] [] store_empty tb_empty 0 []) by (split; [exists [], store_empty, []; done|constructor|done]).
  destruct (druns_inv _ _ _ _ _ _ _ _ I0 D) as (st & pend & xs & n & -> & I). fold (settle dops) in I. fold fl pn in I.
  destruct I as [(xf & st' & xp & R & P & -> & E) F _]. cbn [app] in E. subst xs. exists st, (merged xp), (commit_outs (xf ++ xp)), xf, st', xp.
  pose proof (run_split _ _ _ _ _ _ R P) as R'. split; [done|]. split; [done|]. split; [done|]. split; [by eapply pending_ok|]. split; [done|].
  intros rd v Ov Rv. apply view_reader. pose proof (overlay_same _ _ _ _ _ _ _ R P F Ov) as [Sn Sv]. rewrite <- Eh.
  destruct (run_view H _ _ _ v R' Rv) as (ver & St & V1 & V2). exists ver. split; [|split].
  - destruct St as [St1 St2]. split; [by rewrite Sn|]. intros p Hp q Ne. rewrite Sn. by apply St2.
  - intros p q k x. rewrite Sv. apply V1.
  - intros k. rewrite Sv. apply V2.
Qed.
End defer.

(** Beside it: two commits kept in memory over a written version, a purge of the store below, a flush, and one more
    pending commit. *)
Definition defer_ops : list dop :=
  [ DCommit [ [(K00, Some va); (K80, Some vb)] ]; DFlush;
    DCommit [ [(K00, Some vb); (KC0, Some vc)]; [(K80, None)] ]; DPurge 0; DCommitP [ [(K80, Some va)] ]; DFlush; DPurge 2;
    DCommit [ [(K00, None)] ] ].
Example defer_settled : settle defer_ops =
  ([ Commit [ [(K00, Some va); (K80, Some vb)] ]; Purge 0; Commit [ [(K00, Some vb); (KC0, Some vc)]; [(K80, None)] ]; CommitP [ [(K80, Some va)] ]; Purge 2 ],
   [ Commit [ [(K00, None)] ] ]).
Proof. reflexivity. Qed.
Example defer_reads (H : list byte -> bytes32) : exists st pend outs, druns H store_empty tb_empty 0 defer_ops (Ok (st, pend, outs)) /\
  forall rd, overlay_of (store_reader st) pend rd -> get rd K00 4 = Ok None /\ get rd K00 3 = Ok (Some vb) /\ get rd K80 2 = Ok None.
Proof.
  destruct (C76_deferred_writes H defer_ops) as ((r & D) & _ & G). destruct (G r D) as (st & pend & outs & xf & st' & xp & -> & _ & _ & _ & _ & Rd). clear G.
  exists st, pend, outs. split; [exact D|]. clear D. intros rd Ov.
  assert (R4 : readable ((settle defer_ops).1 ++ (settle defer_ops).2) 4) by (vm_compute; split; [discriminate|reflexivity]).
  assert (R3 : readable ((settle defer_ops).1 ++ (settle defer_ops).2) 3) by (vm_compute; split; [discriminate|reflexivity]).
  assert (R2 : readable ((settle defer_ops).1 ++ (settle defer_ops).2) 2) by (vm_compute; split; [discriminate|reflexivity]).
  split; [|split].
  - rewrite (proj1 (Rd rd 4%N Ov R4) K00). vm_compute. reflexivity.
  - rewrite (proj1 (Rd rd 3%N Ov R3) K00). vm_compute. reflexivity.
  - rewrite (proj1 (Rd rd 2%N Ov R2) K80). vm_compute. reflexivity.
Qed.
