(** C91: a store that keeps the contract of TreeReader and TreeWriter serves and goes on as the mock store does, however it began: empty, with any first
    version, or restored - from such a store again, or from any source that answers like one. *)
From Coq Require Import Strings.String.
From Verif Require CommitMono BatchTop.
From Verif Require Import Restore.
From Verif Require Import Base Spec SpecOrder SpecRange NodeType ProofDef TreeCache Tree BatchTree Mock MockSteps MockStepFacts Driver Iterator Exclusion KeyFacts SmtFacts ProofFacts NodeFacts Canon CanonSib ReadFacts PutFacts VersionFacts KeyOrder OrderFacts IterFacts ExclFacts ValueFacts StoreFacts DriverFacts LeafVersion ThmProof ThmStore ThmStore2 Demo Toy RangeFacts ThmRange ThmIter ThmExcl
  RestoreFacts RestoreFacts2 RestoreVerify RestoreTop RestoreRec RestoreDriver RestoreRun ThmRestore ThmCrash ThmPurged ThmBatch ThmOrigin ThmContinue FirstFacts ThmFirst ThmBackend ThmBRestore.
From Coq Require Import Lia.
Local Opaque Spec.smt root_inputs ms_in.

Section borigin.
Context (H : list byte -> bytes32) {T : Type}.
Context (rd : T -> reader) (write : T -> tree_batch -> outcome T) (prune : T -> version -> outcome T)
  (wnb : T -> gmap nodekey node -> gmap (version * key) (option value) -> outcome T) (held : T -> holding).
(** *** Specification *)
(** a source for a restore: whatever answers like a store in use does, at some readable version whose contents are [m] (the store itself, a reader that runs
    concurrently with commits and purges (C82), a store of another kind (C89), a replica (below)) *)
Definition source (src : reader) (vs : version) (m : gmap key value) : Prop := exists n f c t w, in_use H n f c t /\ (f <= w)%N /\ (w < n)%N /\ c w = m /\ same_answers H src vs (store_reader t) w.
(** What may be in the store after a crash: some of the nodes, values and indices of the batch that was being written; or some of the nodes gone that were being pruned (with or
    without their index entries). *)
Definition partly_stored (b : tree_batch) (h h' : holding) : Prop := exists nodes vals stale, nodes ⊆ tb_nodes b /\ vals ⊆ tb_values b /\ stale ⊆ tb_stale b /\
  h' = Held (nodes ∪ h_nodes h) (vals ∪ h_values h) (stale ∪ h_stale h).
Definition partly_dropped (l : version) (h h' : holding) : Prop := h_values h' = h_values h /\ h_stale h' ⊆ h_stale h /\
  forall nk, h_nodes h' !! nk = h_nodes h !! nk \/ (h_nodes h' !! nk = None /\ exists w, (w <= l)%N /\ (w, nk) ∈ h_stale h).
(** [b_in_use n f c s]: the store [s] has been in use (the same as in_use of ThmOrigin.v).  Moreover it may change in ways that do not show (caches, compaction), and crash: in the middle
    of pruning, or in the middle of a commit, when the same batch is then written again. *)
Inductive b_in_use : version -> version -> (version -> gmap key value) -> T -> Prop :=
| b_empty s : held s = Held ∅ ∅ ∅ -> b_in_use 0 0 (fun _ => ∅) s
| b_first s0 v o set sets s x : held s0 = Held ∅ ∅ ∅ -> op_sets o = set :: sets -> inserts set -> bstep H rd write prune s0 v o = Ok (s, x) ->
    b_in_use (v + N.of_nat (length (op_sets o))) v (fun w => contents_at (op_sets o) (w - v)) s
| b_restored s0 src ovf vs m v root evs s r s' : held s0 = Held ∅ ∅ ∅ -> source src vs m -> m <> ∅ -> ~ hash_broken H (root_inputs H m) -> get_root_hash H src vs = Ok root ->
    bdeliver_all H rd wnb ovf s0 src vs m v root evs = Ok (s, r, []) -> bfinish H wnb s r = Ok s' -> b_in_use (v + 1) v (fun _ => m) s'
| b_more n f c s more s' ys : b_in_use n f c s -> brun_from H rd write prune s n more = Ok (s', ys) ->
    b_in_use (n + num_versions more) (fold_left floor_step more (f, n)).1 (later n c more) s'
| b_same n f c s s' : b_in_use n f c s -> held s' = held s -> b_in_use n f c s'
| b_half_pruned n f c s l s' : b_in_use n f c s -> partly_dropped l (held s) (held s') -> b_in_use (n + 0) (fold_left floor_step [Purge l] (f, n)).1 (later n c [Purge l]) s'
| b_redone n f c s sets roots b s1 s' : b_in_use n f c s -> put_value_sets H (rd s) sets n = Ok (roots, b) -> partly_stored b (held s) (held s1) -> write s1 b = Ok s' ->
    b_in_use (n + num_versions [Commit sets]) f (later n c [Commit sets]) s'.

(** *** Proof *)
Context (C : conforms rd write prune held) (CR : conforms_restore rd wnb held).
Definition kept (n : version) (t : store) (s : T) : Prop :=
  (forall nk nd, st_nodes t !! nk = Some nd -> h_nodes (held s) !! nk = Some nd) /\
  (forall nk nd, h_nodes (held s) !! nk = Some nd -> (nk.1 < n)%N) /\
  (forall log, log ∈ h_stale (held s) -> (log.2.1 < n)%N /\ (log.1 < n)%N /\ (log ∈ st_stale t \/ st_nodes t !! log.2 = None)) /\
  vrel (h_values (held s)) (st_history t) /\ (forall w k x, h_values (held s) !! (w, k) = Some x -> (w < n)%N).
Lemma stored_again b h h' : partly_stored b h h' -> Held (tb_nodes b ∪ h_nodes h') (tb_values b ∪ h_values h') (tb_stale b ∪ h_stale h') = Held (tb_nodes b ∪ h_nodes h) (tb_values b ∪ h_values h) (tb_stale b ∪ h_stale h).
Proof using.
  clear. intros (N & V & S & Ln & Lv & Ls & ->). cbn [h_nodes h_values h_stale]. f_equal.
  - rewrite (assoc_L (∪)). f_equal. apply map_eq. intros k. rewrite lookup_union. destruct (N !! k) as [x|] eqn:E; [rewrite (lookup_weaken _ _ _ _ E Ln); done|]. by destruct (tb_nodes b !! k).
  - rewrite (assoc_L (∪)). f_equal. apply map_eq. intros k. rewrite lookup_union. destruct (V !! k) as [x|] eqn:E; [rewrite (lookup_weaken _ _ _ _ E Lv); done|]. by destruct (tb_values b !! k).
  - rewrite (assoc_L (∪)). f_equal. set_solver.
Qed.
Lemma kept_value n t s w k : kept n t s -> rd_value (rd s) w k = store_value t w k.
Proof using C. intros (_ & _ & _ & V & _). eapply vrel_value; [exact (cf_value _ _ _ _ C s)|exact V]. Qed.
Lemma floor_lt more : forall n f, (n = 0 /\ f = 0)%N \/ (f < n)%N -> let r := fold_left floor_step more (f, n) in (n + num_versions more = 0 /\ r.1 = 0)%N \/ (r.1 < n + num_versions more)%N.
Proof using.
  clear. induction more as [|o more IH]; intros n f Q; cbn [fold_left]; [unfold num_versions; cbn; rewrite N.add_0_r; done|].
  assert (E : floor_step (f, n) o = ((floor_step (f, n) o).1, n + N.of_nat (length (op_sets o)))%N) by (destruct o; cbn [floor_step op_sets fst snd]; [done|done|by rewrite (N.add_0_r n : (n + N.of_nat (@length value_set []) = n)%N)]).
  assert (En : num_versions (o :: more) = (N.of_nat (length (op_sets o)) + num_versions more)%N) by (unfold num_versions, history; cbn [flat_map]; rewrite app_length; lia).
  rewrite E, En, N.add_assoc. apply IH. destruct o as [sets|sets|l]; cbn [floor_step fst snd op_sets length]; lia.
Qed.
Lemma in_use_lt n f c t : in_use H n f c t -> (n = 0 /\ f = 0)%N \/ (f < n)%N.
Proof using.
  induction 1 as [|v o s sets st x Eo Hs E|n f c src ovf vs v root evs rs s _ O L1 L2 Ne NB Er D F|n f c s more s' ys _ O E].
  - by left.
  - right. rewrite Eo. cbn [length]. lia.
  - right. lia.
  - by apply floor_lt.
Qed.
Lemma kept_view n f c t s w : in_use H n f c t -> kept n t s -> (f <= w)%N -> (w < n)%N -> view H (rd s) w (c w).
Proof using C.
  intros U K L1 L2. pose proof (okay_view H _ _ _ _ w (in_use_okay H _ _ _ _ U) L1 L2) as V. eapply view_mono; [exact V|exact L2| |].
  - intros nk nd E. rewrite (cf_node _ _ _ _ C). destruct K as (C1 & C2 & _). pose proof (C1 nk nd E) as E'. split; [exact E'|by eapply C2].
  - intros w' k _. by eapply kept_value.
Qed.
Lemma kept_put n f c t s sets : in_use H n f c t -> kept n t s ->
  put_value_sets H (rd s) sets n = put_value_sets H (store_reader t) sets n /\ put_value_sets_with_proof H (rd s) sets n = put_value_sets_with_proof H (store_reader t) sets n /\
  (forall bs, Forall (fun x => x <> []) bs -> batch_put_value_sets H (rd s) bs None n = batch_put_value_sets H (store_reader t) bs None n).
Proof using C.
  intros U K. pose proof K as (C1 & C2 & _). set (r := store_reader t). set (r' := rd s).
  assert (Le : forall nk nd, rd_node r nk = Some nd -> rd_node r' nk = Some nd) by (intros nk nd E; unfold r'; rewrite (cf_node _ _ _ _ C); by apply C1).
  assert (Fr : forall w, (n <= w)%N -> rd_node r' (w, []) = None). { intros w L. unfold r'. rewrite (cf_node _ _ _ _ C). destruct (h_nodes (held s) !! (w, [])) as [nd|] eqn:E; [|done]. apply C2 in E. cbn in E. lia. }
  pose proof (in_use_okay H _ _ _ _ U) as (B & ops' & En & S0 & _ & _). cbn zeta in S0. destruct (commit_batchB H B _ _ _ _ _ sets S0) as (_ & b & pfss & P1 & P2 & _). rewrite En in P1, P2. fold r in P1, P2.
  assert (Ec : cache_new r' n = cache_new r n).
  { unfold cache_new. destruct (N.eqb_spec n 0) as [Z|Z]; [|done]. assert (E' : rd_node r' (nk_root PRE_GENESIS_VERSION) = None) by (apply Fr; rewrite Z; lia).
    destruct (rd_node r (nk_root PRE_GENESIS_VERSION)) as [nd|] eqn:E; [apply Le in E; congruence|]. by rewrite E'. }
  assert (Rh : CommitMono.rootish r n (tc_root (cache_new r n))).
  { unfold cache_new. destruct (N.eqb_spec n 0) as [Z|Z].
    - assert (E' : rd_node r' (nk_root PRE_GENESIS_VERSION) = None) by (apply Fr; rewrite Z; lia). destruct (rd_node r (nk_root PRE_GENESIS_VERSION)) as [nd|] eqn:E; [apply Le in E; congruence|]. exists 0%N. split; [done|]. left. lia.
    - exists (n - 1)%N. split; [done|]. right. destruct (in_use_lt _ _ _ _ U) as [[? _]|L]; [done|]. destruct (okay_view H _ _ _ _ (n - 1)%N (in_use_okay H _ _ _ _ U)) as (ver & [Rt _] & _); [lia|lia|]. unfold r. by rewrite Rt. }
  split; [|split].
  - rewrite P1. unfold put_value_sets in *. rewrite Ec. apply bind_inv' in P1 as (x & P1 & Eb). by rewrite (CommitMono.put_sets_le H r r' n Le Fr sets n _ x (N.le_refl _) Rh P1), bind_Ok.
  - rewrite P2. unfold put_value_sets_with_proof in *. rewrite Ec. apply bind_inv' in P2 as (x & P2 & Eb). destruct x as [ps x]. by rewrite (CommitMono.put_sets_wp_le H r r' n Le Fr sets n _ (ps, x) (N.le_refl _) Rh P2), bind_Ok.
  - intros bs Fs. destruct (commit_batchB H B _ _ _ _ _ (insertions bs) S0) as (_ & b' & pfss' & P1' & _). rewrite En in P1'. rewrite <- (C82_batch H n f c t bs U Fs) in P1'. fold r in P1'. rewrite P1'.
    unfold batch_put_value_sets in *. rewrite Ec. apply bind_inv' in P1' as (u & Eu & P1'). rewrite Eu, bind_Ok. apply bind_inv' in P1' as (x & P1' & Eb). by rewrite (CommitMono.batch_sets_le H r r' n Le Fr _ n _ x (N.le_refl _) Rh P1'), bind_Ok.
Qed.
(** what a batch speaks about (C74, for any origin) *)
Lemma batch_versions n f c t sets roots b : in_use H n f c t -> put_value_sets H (store_reader t) sets n = Ok (roots, b) -> let m := N.of_nat (length sets) in
  (forall nk nd, tb_nodes b !! nk = Some nd -> (n <= nk.1 < n + m)%N) /\ (forall s nk, (s, nk) ∈ tb_stale b -> (nk.1 < s)%N /\ (n <= s < n + m)%N) /\ (forall v k x, tb_values b !! (v, k) = Some x -> (n <= v < n + m)%N).
Proof using.
  intros U P m. apply in_use_okay in U as (B & ops' & En & S & _). cbn zeta in S. destruct (commit_batchB H B _ _ _ _ _ sets S) as (Tn & b' & pfss & P1 & _ & BO & _). rewrite En in P1, BO. rewrite P in P1. injection P1 as _ <-. clear P.
  set (tr := (xrun H tb0 ops').1) in *. set (b1 := (xrun H tb0 ops').2) in *.
  assert (Vn : forall x, x ∈ trn H tr b1 sets -> (n <= vs_v x < n + m)%N).
  { intros x (i & E)%elem_of_list_lookup. pose proof (lookup_lt_Some _ _ _ E) as L. rewrite trn_length in L. apply (trn_mapsB H B _ _ _ _ _ _ S) in E as [-> _]. unfold m. lia. }
  assert (TT : forall x, x ∈ trn H tr b1 sets -> Tr H (tr ++ trn H tr b1 sets) (last_bt b1 (trn H tr b1 sets))).
  { intros x Hx. destruct Tn as [[E _]|Q]; [|done]. apply app_eq_nil in E as [_ E]. rewrite E in Hx. by apply elem_of_nil in Hx. }
  split; [|split].
  - intros nk nd E. apply (bo_nodes _ _ _ _ _ BO) in E as (x & Hx & [-> _]). by apply Vn.
  - intros s nk E. apply (bo_stale _ _ _ _ _ BO) in E as (x & Hx & -> & Sx). split; [|by apply Vn]. pose proof (tr_inv H _ _ (TT x Hx)) as ((_ & T2 & _) & _). apply (T2 x nk); [apply elem_of_app; by right|done].
  - intros v k x E. rewrite (bo_values _ _ _ _ _ BO) in E. apply bvals_lookup in E; [|intros; apply lookup_empty]. destruct E as [E|E]; [apply hl_lt in E; exact E|discriminate E].
Qed.
Lemma write_parts t b t' : write_tree_update_batch t b = Ok t' -> st_nodes t' = tb_nodes b ∪ st_nodes t /\ st_stale t' = tb_stale b ∪ st_stale t /\ write_values (st_history t) (sorted_values (tb_values b)) = Ok (st_history t').
Proof using.
  intros W. unfold write_tree_update_batch, write_node_batch in W. apply bind_inv' in W as (s1 & W1 & W). apply bind_inv' in W1 as (u & _ & W1). apply bind_inv' in W1 as (h & Eh & W1). injection W1 as <-. apply bind_inv' in W as (u' & _ & W). injection W as <-. done.
Qed.
(** what the commit writes: [b] is about the versions from [n] on *)
Lemma kept_write n m t s b t' s' : kept n t s -> (forall nk nd, tb_nodes b !! nk = Some nd -> (n <= nk.1 < n + m)%N) -> (forall s nk, (s, nk) ∈ tb_stale b -> (nk.1 < s)%N /\ (n <= s < n + m)%N) ->
  (forall v k x, tb_values b !! (v, k) = Some x -> (n <= v < n + m)%N) -> write_tree_update_batch t b = Ok t' -> held s' = Held (tb_nodes b ∪ h_nodes (held s)) (tb_values b ∪ h_values (held s)) (tb_stale b ∪ h_stale (held s)) -> kept (n + m) t' s'.
Proof using.
  intros (C1 & C2 & C3 & C4 & C5) B1 B2 B3 W W'. apply write_parts in W as (Wn & Ws & Wv). destruct (sorted_values_nodup (tb_values b)) as [ND Lm]. destruct (write_vrel _ _ _ _ C4 Wv ND) as (hv' & V' & Q & _).
  unfold kept. rewrite W'. cbn [h_nodes h_values h_stale]. split; [|split; [|split; [|split]]].
  - intros nk nd E. rewrite Wn in E. apply lookup_union_Some_raw in E as [E|[E1 E2]]; apply lookup_union_Some_raw; [by left|right]. split; [done|by apply C1].
  - intros nk nd E. apply lookup_union_Some_raw in E as [E|[_ E]]; [apply B1 in E; lia|]. apply C2 in E. lia.
  - intros [w nk] E. rewrite Wn, Ws. cbn [fst snd]. apply elem_of_union in E as [E|E]; [pose proof (B2 _ _ E); split; [lia|]; split; [lia|]; left; apply elem_of_union; by left|].
    destruct (C3 _ E) as (L1 & L2 & D). cbn [fst snd] in L1, L2, D. split; [lia|]. split; [lia|]. destruct D as [D|D]; [left; apply elem_of_union; by right|right].
    apply lookup_union_None. split; [|exact D]. destruct (tb_nodes b !! nk) as [nd|] eqn:E'; [|done]. apply B1 in E'. lia.
  - replace (tb_values b ∪ h_values (held s)) with hv'; [done|]. apply map_eq. intros e. rewrite Q, Lm, lookup_union. by destruct (tb_values b !! e), (h_values (held s) !! e).
  - intros w k x E. apply lookup_union_Some_raw in E as [E|[_ E]]; [apply B3 in E; lia|]. apply C5 in E. lia.
Qed.
Lemma kept_prune n t s l t' s' : kept n t s -> purge_stale_nodes t l = Ok t' -> prune s l = Ok s' -> kept n t' s'.
Proof using C.
  intros (C1 & C2 & C3 & C4 & C5) P P'. apply (cf_prune _ _ _ _ C) in P' as (D & Ds & Dl & Es & Ev & Ek & Ed). pose proof P as Pn. apply purge_loop_nodes in Pn as [Ph Pn]. apply (purge_loop_stale rd write prune held C) in P.
  unfold kept. rewrite Es, Ev.
  assert (G : forall nk nd, st_nodes t' !! nk = Some nd -> forall w, (w, nk) ∉ D).
  { intros nk nd E w Hw. apply Pn in E as [E Q]. destruct (C3 _ (Ds _ Hw)) as (_ & _ & [Hs|Hs]); [|cbn in Hs; congruence]. apply (Q (w, nk)); [|done]. apply elem_of_elements, elem_of_filter. split; [by apply Dl|done]. }
  split; [|split; [|split; [|split]]].
  - intros nk nd E. rewrite Ek; [apply C1; by apply Pn in E as [? _]|by eapply G].
  - intros nk nd E. destruct (decide (exists log, log ∈ D /\ log.2 = nk)) as [([w nk'] & Hd & <-)|Nd].
    + cbn [snd] in E. rewrite (Ed _ _ Hd) in E. done.
    + rewrite Ek in E; [by eapply C2|]. intros w Hw. apply Nd. by exists (w, nk).
  - intros log Hl. apply elem_of_difference in Hl as [Hl _]. destruct (C3 _ Hl) as (L1 & L2 & [Hs|Hs]); (split; [done|]; split; [done|]).
    + rewrite P. destruct (decide (log.1 <= l)%N) as [L|L].
      * right. destruct (st_nodes t' !! log.2) as [nd|] eqn:E; [|done]. apply Pn in E as [_ Q]. exfalso. apply (Q log); [|done]. apply elem_of_elements, elem_of_filter. done.
      * left. apply elem_of_difference. split; [done|]. intros Z. apply elem_of_list_to_set, elem_of_elements, elem_of_filter in Z as [Z _]. done.
    + right. destruct (st_nodes t' !! log.2) as [nd|] eqn:E; [|done]. apply Pn in E as [E _]. congruence.
  - by rewrite Ph.
  - exact C5.
Qed.
(** a crash in the middle of pruning: as if the pruning had been completed *)
Lemma kept_half n t s l t' s' : kept n t s -> purge_stale_nodes t l = Ok t' -> partly_dropped l (held s) (held s') -> kept n t' s'.
Proof using C.
  intros (C1 & C2 & C3 & C4 & C5) P (Ev & Es & Ek). pose proof P as Pn. apply purge_loop_nodes in Pn as [Ph Pn]. pose proof P as Pst. apply (purge_loop_stale rd write prune held C) in Pst.
  unfold kept. rewrite Ev. split; [|split; [|split; [|split]]].
  - intros nk nd E. apply Pn in E as [E Q]. destruct (Ek nk) as [->|(_ & w & L & Hw)]; [by apply C1|]. exfalso. destruct (C3 _ Hw) as (_ & _ & [Hs|Hs]); [|cbn in Hs; congruence]. apply (Q (w, nk)); [|done]. apply elem_of_elements, elem_of_filter. done.
  - intros nk nd E. destruct (Ek nk) as [E'|(E' & _)]; [rewrite E' in E; by eapply C2|congruence].
  - intros log Hl. apply Es in Hl. destruct (C3 _ Hl) as (L1 & L2 & [Hs|Hs]); (split; [done|]; split; [done|]).
    + destruct (decide (log.1 <= l)%N) as [L|L].
      * right. destruct (st_nodes t' !! log.2) as [nd|] eqn:E; [|done]. apply Pn in E as [_ Q]. exfalso. apply (Q log); [|done]. apply elem_of_elements, elem_of_filter. done.
      * left. rewrite Pst. apply elem_of_difference. split; [done|]. intros Z. apply elem_of_list_to_set, elem_of_elements, elem_of_filter in Z as [Z _]. done.
    + right. destruct (st_nodes t' !! log.2) as [nd|] eqn:E; [|done]. apply Pn in E as [E _]. congruence.
  - by rewrite Ph.
  - exact C5.
Qed.
Lemma in_use_step n f c t o : in_use H n f c t -> exists t' x f' c', step H t n o = Ok (t', x) /\ in_use H (n + N.of_nat (length (op_sets o))) f' c' t'.
Proof using.
  intros U. destruct (C82_goes_on H n f c t [o] U) as (t' & ys & R & U'). cbn [run_from] in R. apply bind_inv' in R as ([t1 x] & E & R). rewrite bind_Ok in R. injection R as <- <-.
  exists t1, x. do 2 eexists. split; [exact E|]. replace (N.of_nat (length (op_sets o))) with (num_versions [o]); [exact U'|]. unfold num_versions, history. cbn [flat_map]. by rewrite app_nil_r.
Qed.
Lemma kept_step n f c t s o s' x : in_use H n f c t -> kept n t s -> bstep H rd write prune s n o = Ok (s', x) ->
  exists t', step H t n o = Ok (t', x) /\ kept (n + N.of_nat (length (op_sets o))) t' s'.
Proof using C.
  intros U K E. destruct (in_use_step n f c t o U) as (t' & x' & _ & _ & E' & _). pose proof E' as E2. destruct o as [sets|sets|l]; cbn [bstep op_sets] in *; cbn [step] in E2.
  - destruct (kept_put n f c t s sets U K) as [Ep _]. rewrite Ep in E. apply bind_inv' in E2 as ([roots b] & P & E2). rewrite P, bind_Ok in E. apply bind_inv' in E2 as (t1 & W & E2). injection E2 as <- <-.
    apply bind_inv' in E as (s1 & W' & E). injection E as <- <-. exists t1. split; [exact E'|]. destruct (batch_versions _ _ _ _ _ _ _ U P) as (B1 & B2 & B3). eapply kept_write; [exact K|exact B1|exact B2|exact B3|exact W|by apply (cf_write _ _ _ _ C)].
  - destruct (kept_put n f c t s sets U K) as (_ & Ep & _). rewrite Ep in E. apply bind_inv' in E2 as ([roots b] & P & E2). rewrite P, bind_Ok in E. apply bind_inv' in E2 as (t1 & W & E2). injection E2 as <- <-.
    apply bind_inv' in E as (s1 & W' & E). injection E as <- <-. exists t1. split; [exact E'|].
    destruct (C82_commit H n f c t sets true U) as (roots' & pfss & b' & P1 & P2 & _). rewrite P in P2. injection P2 as -> ->. destruct (batch_versions _ _ _ _ _ _ _ U P1) as (B1 & B2 & B3). eapply kept_write; [exact K|exact B1|exact B2|exact B3|exact W|by apply (cf_write _ _ _ _ C)].
  - apply bind_inv' in E2 as (t1 & P & E2). injection E2 as <- <-. apply bind_inv' in E as (s1 & P' & E). injection E as <- <-. exists t1. split; [exact E'|]. cbn [length]. rewrite N.add_0_r. by eapply kept_prune.
Qed.
Lemma kept_run more : forall n f c t s s' ys, in_use H n f c t -> kept n t s -> brun_from H rd write prune s n more = Ok (s', ys) ->
  exists t', run_from H t n more = Ok (t', ys) /\ kept (n + num_versions more) t' s'.
Proof using C.
  induction more as [|o more IH]; intros n f c t s s' ys U K E; cbn [brun_from run_from] in *.
  - injection E as <- <-. exists t. split; [done|]. change (num_versions []) with 0%N. by rewrite N.add_0_r.
  - apply bind_inv' in E as ([s1 x] & E1 & E). apply bind_inv' in E as ([s2 ys2] & E2 & E). injection E as <- <-.
    destruct (kept_step n f c t s o s1 x U K E1) as (t1 & St & K1). destruct (in_use_step n f c t o U) as (t1' & x' & f' & c' & E' & U'). rewrite St in E'. injection E' as <- <-.
    destruct (IH _ _ _ _ _ _ _ U' K1 E2) as (t2 & R2 & K2). exists t2. rewrite St, bind_Ok, R2, bind_Ok. split; [done|].
    replace (n + num_versions (o :: more))%N with (n + N.of_nat (length (op_sets o)) + num_versions more)%N; [exact K2|]. unfold num_versions, history. cbn [flat_map]. rewrite app_length. lia.
Qed.
Lemma kept_goes more : accepts write prune held -> forall n f c t s, in_use H n f c t -> kept n t s -> exists s' ys, brun_from H rd write prune s n more = Ok (s', ys).
Proof using C.
  intros [Ap Aw]. induction more as [|o more IH]; intros n f c t s U K; [by eexists s, []|]. cbn [brun_from].
  assert (Es : exists s1 x, bstep H rd write prune s n o = Ok (s1, x)).
  { pose proof K as (C1 & C2 & C3 & C4 & C5).
    assert (G : forall sets roots b, put_value_sets H (store_reader t) sets n = Ok (roots, b) -> exists s1, write s b = Ok s1).
    { intros sets roots b P. destruct (batch_versions _ _ _ _ _ _ _ U P) as (B1 & B2 & B3). apply Aw.
      - intros nk [nd E]. apply B1 in E. destruct (h_nodes (held s) !! nk) as [nd'|] eqn:E'; [|done]. apply C2 in E'. lia.
      - intros [w nk] E Z. apply B2 in E as [_ L]. apply C3 in Z as (_ & L' & _). cbn [fst] in L'. lia.
      - intros w w' k [x E] [y E']. apply B3 in E. apply C5 in E'. lia. }
    destruct o as [sets|sets|l]; cbn [bstep].
    - destruct (kept_put n f c t s sets U K) as [Ep _]. rewrite Ep. destruct (C82_commit H n f c t sets true U) as (roots' & pfss & b' & P1 & P2 & _). rewrite P1, bind_Ok. destruct (G _ _ _ P1) as (s1 & W). rewrite W, bind_Ok. eauto.
    - destruct (kept_put n f c t s sets U K) as (_ & Ep & _). rewrite Ep. destruct (C82_commit H n f c t sets true U) as (roots' & pfss & b' & P1 & P2 & _). rewrite P2, bind_Ok. destruct (G _ _ _ P1) as (s1 & W). rewrite W, bind_Ok. eauto.
    - destruct (Ap s l) as (s1 & P). rewrite P, bind_Ok. eauto. }
  destruct Es as (s1 & x & E1). rewrite E1, bind_Ok. destruct (kept_step n f c t s o s1 x U K E1) as (t1 & St & K1). destruct (in_use_step n f c t o U) as (t1' & x' & f' & c' & E' & U'). rewrite St in E'. injection E' as <- <-.
  destruct (IH _ _ _ _ _ U' K1) as (s' & ys & E2). rewrite E2, bind_Ok. eauto.
Qed.
(** the versions in a store in use (C74, for any origin) *)
Lemma in_use_versions n f c t : in_use H n f c t -> (forall nk nd, st_nodes t !! nk = Some nd -> (nk.1 < n)%N) /\ (forall s nk, (s, nk) ∈ st_stale t -> (nk.1 < n)%N /\ (s < n)%N) /\
  (forall k l v x, st_history t !! k = Some l -> (v, x) ∈ l -> (v < n)%N).
Proof using.
  intros U. apply in_use_okay in U as (B & ops' & <- & S & _). cbn zeta in S. split; [|split].
  - intros nk nd E. by eapply inv_nodes_lt.
  - intros s nk E. apply (sb_stale _ _ _ _ _ _ _ S) in E as (x & Hx & -> & Sx). pose proof (sb_trok _ _ _ _ _ _ _ S) as Tk. pose proof (tr_lt H _ x Tk Hx) as L. rewrite (sb_len _ _ _ _ _ _ _ S) in L. destruct Tk as (_ & T2 & _). pose proof (T2 x nk Hx Sx). lia.
  - intros k l v x E Hl. pose proof (sb_hist _ _ _ _ _ _ _ S k) as Hk. rewrite E in Hk. cbn in Hk. subst l. apply hl_lt in Hl. lia.
Qed.
Lemma kept_same n f c t s : in_use H n f c t -> h_nodes (held s) = st_nodes t -> (forall log, log ∈ h_stale (held s) -> log ∈ st_stale t) -> vrel (h_values (held s)) (st_history t) -> kept n t s.
Proof using.
  intros U En Es V. destruct (in_use_versions _ _ _ _ U) as (V1 & V2 & V3). unfold kept. rewrite En. split; [done|]. split; [exact V1|]. split; [|split; [done|]].
  - intros [w nk] Hl. apply Es in Hl. destruct (V2 _ _ Hl). split; [done|]. split; [done|]. by left.
  - intros w k x E. apply V in E as (l & El & Hl). by eapply V3.
Qed.
Lemma vrel_empty : vrel ∅ ∅.
Proof using. split; [intros k l E; discriminate E|]. intros w k x. split; [intros E; discriminate E|]. intros (l & E & _). discriminate E. Qed.
Lemma first_put s0 v sets : held s0 = Held ∅ ∅ ∅ ->
  (forall y, put_value_sets H (store_reader store_empty) sets v = Ok y -> put_value_sets H (rd s0) sets v = Ok y) /\
  (forall y, put_value_sets_with_proof H (store_reader store_empty) sets v = Ok y -> put_value_sets_with_proof H (rd s0) sets v = Ok y).
Proof using C.
  intros E0. set (r := store_reader store_empty). set (r' := rd s0).
  assert (N : forall nk, rd_node r' nk = None) by (intros nk; unfold r'; rewrite (cf_node _ _ _ _ C), E0; reflexivity).
  assert (Le : forall nk nd, rd_node r nk = Some nd -> rd_node r' nk = Some nd) by (intros nk nd E; discriminate E).
  assert (Fr : forall w, (0 <= w)%N -> rd_node r' (w, []) = None) by (intros w _; apply N).
  assert (Ec : cache_new r' v = cache_new r v) by (unfold cache_new; by rewrite N).
  assert (Rh : CommitMono.rootish r 0 (tc_root (cache_new r v))).
  { unfold cache_new. destruct (N.eqb_spec v 0) as [Z|Z]; [|exists (v - 1)%N; split; [done|left; lia]]. change (rd_node r (nk_root PRE_GENESIS_VERSION)) with (None : option node). exists 0%N. split; [done|]. left. lia. }
  split; intros y P.
  - unfold put_value_sets in *. rewrite Ec. apply bind_inv' in P as (x & P & Eb). rewrite (CommitMono.put_sets_le H r r' 0 Le Fr sets v _ x (N.le_0_l _) Rh P), bind_Ok. exact Eb.
  - unfold put_value_sets_with_proof in *. rewrite Ec. apply bind_inv' in P as (x & P & Eb). destruct x as [ps x]. rewrite (CommitMono.put_sets_wp_le H r r' 0 Le Fr sets v _ (ps, x) (N.le_0_l _) Rh P), bind_Ok. exact Eb.
Qed.
Lemma first_ok v o set sets : op_sets o = set :: sets -> inserts set -> exists t x, step H store_empty v o = Ok (t, x).
Proof using.
  intros Eo Hs. destruct (decide (v = 0%N)) as [->|Hv].
  - destruct (in_use_step 0 0 _ _ o (in_use_empty H)) as (t & x & _ & _ & E & _). eauto.
  - destruct (first_commit H v o set sets Hv Eo Hs) as (st1 & x1 & E1 & _). eauto.
Qed.
Lemma first_write s0 b t s : held s0 = Held ∅ ∅ ∅ -> write_tree_update_batch store_empty b = Ok t -> write s0 b = Ok s ->
  h_nodes (held s) = st_nodes t /\ h_stale (held s) = st_stale t /\ vrel (h_values (held s)) (st_history t).
Proof using C.
  intros E0 W W'. apply write_parts in W as (Wn & Ws & Wv). apply (cf_write _ _ _ _ C) in W'. rewrite W', E0, Wn, Ws. cbn [h_nodes h_values h_stale]. split; [done|]. split; [done|].
  destruct (sorted_values_nodup (tb_values b)) as [ND Lm]. destruct (write_vrel _ _ _ _ vrel_empty Wv ND) as (hv' & V' & Q & _).
  replace (tb_values b ∪ ∅) with hv'; [done|]. apply map_eq. intros e. rewrite Q, Lm. rewrite (right_id_L ∅ (∪)). by destruct (tb_values b !! e).
Qed.
Lemma first_step s0 v o t x s x' : held s0 = Held ∅ ∅ ∅ -> op_sets o <> [] -> step H store_empty v o = Ok (t, x) -> bstep H rd write prune s0 v o = Ok (s, x') ->
  x' = x /\ h_nodes (held s) = st_nodes t /\ h_stale (held s) = st_stale t /\ vrel (h_values (held s)) (st_history t).
Proof using C.
  intros E0 No E E'. destruct o as [sets|sets|l]; cbn [step bstep op_sets] in *; [..|done].
  - apply bind_inv' in E as ([roots b] & P & E). apply bind_inv' in E as (t1 & W & E). injection E as <- <-. destruct (first_put s0 v sets E0) as [Q _]. rewrite (Q _ P), bind_Ok in E'.
    apply bind_inv' in E' as (s1 & W' & E'). injection E' as <- <-. split; [done|]. by eapply first_write.
  - apply bind_inv' in E as ([roots b] & P & E). apply bind_inv' in E as (t1 & W & E). injection E as <- <-. destruct (first_put s0 v sets E0) as [_ Q]. rewrite (Q _ P), bind_Ok in E'.
    apply bind_inv' in E' as (s1 & W' & E'). injection E' as <- <-. split; [done|]. by eapply first_write.
Qed.
(** the restore *)
Lemma restore_sim src vs m n f c t w ovf s0 v root evs : in_use H n f c t -> (f <= w)%N -> (w < n)%N -> c w = m -> same_answers H src vs (store_reader t) w -> held s0 = Held ∅ ∅ ∅ ->
  ~ hash_broken H (root_inputs H m) -> get_root_hash H src vs = Ok root -> m <> ∅ ->
  exists rs l, deliver_all H ovf (store_reader t) w m v root evs = Ok (rs, l) /\ get_root_hash H (store_reader t) w = Ok root /\
    (forall s r l', bdeliver_all H rd wnb ovf s0 src vs m v root evs = Ok (s, r, l') -> r = bare rs /\ l' = l /\ sim held s (rs_store rs)) /\
    (accepts_nodes wnb held -> exists s, bdeliver_all H rd wnb ovf s0 src vs m v root evs = Ok (s, bare rs, l)).
Proof using CR.
  intros U L1 L2 <- Sa E0 NBr Er Ne. set (m := c w) in *. pose proof Er as Er0. destruct Sa as (_ & _ & Sr & _ & _ & Sp & _). rewrite Sr in Er0.
  destruct (C82_reads H n f c t w U L1 L2) as (_ & _ & Er1 & _). fold m in Er1. rewrite Er0 in Er1. apply Ok_inj in Er1. subst root.
  destruct (okay_source H ovf _ _ _ _ _ v evs (in_use_okay H _ _ _ _ U) L1 L2) as (st & xs & R & (_ & _ & _ & _ & _ & Sp' & _) & _). fold m in R.
  assert (So : source_ok H m src vs).
  { pose proof (source_run H _ _ _ _ R (at_once_readable m)) as So. rewrite at_once_contents in So. intros k x Ek. destruct (So k x Ek) as (p & j & Ep & Tj & Es). exists p, j. rewrite Sp, Sp'. done. }
  assert (NB : nb H (H <$> m)). { destruct (nb_dec H (H <$> m)) as [NB|(x & Hx & Ex)]; [done|]. exfalso. apply NBr. right. exists x. split; [by apply ms_in_root|done]. }
  destruct (start_hobj H v m) as (rs0 & En & Ho & _). destruct (deliver_ok H v m ovf src vs evs NB So rs0 _ _ Ho) as (rs & X & Y & Ed & Ho'). pose proof (restore_new_store H _ _ _ _ En) as Es0.
  assert (S0 : sim held s0 store_empty). { unfold sim. rewrite E0. split; [done|]. split; [apply vrel_empty|]. done. }
  assert (O0 : one_leaf store_empty) by (intros nk nk' l l' E; discriminate E).
  assert (S0' : sim held s0 (rs_store rs0)) by (by rewrite Es0).
  destruct (sim_deliver H rd wnb held CR ovf src vs v m NB So evs s0 rs0 _ _ rs (rest_of m X) Ho S0' Ed) as [D1 D2]. rewrite (rest_empty m) in D1, D2, Ed.
  exists rs, (rest_of m X). split.
  { unfold deliver_all. rewrite En, bind_Ok. rewrite (deliver_ext H ovf (store_reader t) w src vs); [exact Ed|]. intros k. by rewrite Sp. }
  split; [done|]. unfold bdeliver_all. rewrite (sim_new H rd wnb held CR s0 store_empty v _ rs0 S0 O0 En), bind_Ok. split; [exact D1|exact D2].
Qed.
Lemma b_refines n f c s : b_in_use n f c s -> exists t, in_use H n f c t /\ kept n t s.
Proof using C CR.
  induction 1 as [s E0|s0 v o set sets s x E0 Eo Hs E|s0 src ovf vs m v root evs s r s' E0 (n & f & c & t & w & U & L1 & L2 & Em & Sa) Ne NB Er D F|n f c s more s' ys _ (t & U & K) E|n f c s s' _ (t & U & K) E|n f c s l s' _ (t & U & K) E|n f c s sets roots b s1 s' _ (t & U & K) P Ps W].
  - exists store_empty. split; [constructor|]. eapply kept_same; [constructor|by rewrite E0|intros log Z; rewrite E0 in Z; by apply elem_of_empty in Z|rewrite E0; apply vrel_empty].
  - destruct (first_ok v o set sets Eo Hs) as (t & x0 & Et). exists t. assert (U : in_use H (v + N.of_nat (length (op_sets o))) v (fun w => contents_at (op_sets o) (w - v)) t) by (by eapply in_use_first). split; [exact U|].
    destruct (first_step s0 v o t x0 s x E0 ltac:(by rewrite Eo) Et E) as (_ & En & Es & V). eapply kept_same; [exact U|done|intros log Z; by rewrite <- Es|done].
  - destruct (restore_sim src vs m n f c t w ovf s0 v root evs U L1 L2 Em Sa E0 NB Er Ne) as (rs & l & Dt & Ert & D1 & _). destruct (D1 _ _ _ D) as (-> & <- & Sm). subst m.
    assert (Ft : exists t', finish H rs = Ok t').
    { destruct (okay_source H ovf _ _ _ _ _ v evs (in_use_okay H _ _ _ _ U) L1 L2) as (st & xs & R & (_ & _ & Eroot & _) & Eq). pose proof Dt as Dt'. rewrite Eq in Dt'. rewrite Eroot in Ert.
      pose proof (deliver_all_ok H ovf (at_once (c w)) st xs 0%N v root evs R (at_once_readable _) Ert) as Q. cbn zeta in Q. rewrite at_once_contents in Q. destruct Q as [Q|(rs2 & X & Y & Ed & Ho)]; [done|].
      rewrite Dt' in Ed. injection Ed as <- Z. destruct (finish_honest H v (c w) rs X Y Ne Ho (eq_sym Z)) as (t' & Ef & _). eauto. }
    destruct Ft as (t' & Ft). destruct (sim_finish H rd wnb held CR s rs t' Sm Ft) as [S1 _]. destruct (S1 _ F) as (En & V & _ & Es). exists t'. assert (U' : in_use H (v + 1) v (fun _ => c w) t') by (by eapply in_use_restored). split; [exact U'|].
    eapply kept_same; [exact U'|done|intros log Z; rewrite Es in Z; by apply elem_of_empty in Z|done].
  - destruct (kept_run more n f c t s s' ys U K E) as (t' & R & K'). exists t'. split; [by eapply in_use_more|done].
  - exists t. split; [exact U|]. unfold kept. rewrite E. exact K.
  - destruct (in_use_step n f c t (Purge l) U) as (t' & x & _ & _ & E' & _). exists t'. assert (R : run_from H t n [Purge l] = Ok (t', [x])) by (cbn [run_from]; by rewrite E', bind_Ok).
    split; [exact (in_use_more H n f c t [Purge l] t' [x] U R)|]. rewrite N.add_0_r. cbn [step] in E'. apply bind_inv' in E' as (t1 & P & E'). injection E' as <- <-. by eapply kept_half.
  - destruct (in_use_step n f c t (Commit sets) U) as (t' & x & _ & _ & E' & _). exists t'. assert (R : run_from H t n [Commit sets] = Ok (t', [x])) by (cbn [run_from]; by rewrite E', bind_Ok).
    split; [exact (in_use_more H n f c t [Commit sets] t' [x] U R)|]. cbn [step] in E'. destruct (kept_put n f c t s sets U K) as [Ep _]. rewrite Ep in P. rewrite P, bind_Ok in E'. apply bind_inv' in E' as (t1 & Wt & E'). injection E' as <- <-.
    destruct (batch_versions _ _ _ _ _ _ _ U P) as (B1 & B2 & B3). replace (num_versions [Commit sets]) with (N.of_nat (length sets)) by (unfold num_versions, history; cbn [flat_map op_sets]; by rewrite app_nil_r).
    eapply kept_write; [exact K|exact B1|exact B2|exact B3|exact Wt|]. rewrite (cf_write _ _ _ _ C _ _ _ W). by apply stored_again.
Qed.

(** *** C91: reading, and what a commit returns: as the mock store would *)
Theorem C91_serves n f c s : b_in_use n f c s -> exists t, in_use H n f c t /\
  (forall w k, get (rd s) k w = get (store_reader t) k w) /\
  (forall w, (f <= w)%N -> (w < n)%N -> reader_reads_as H (rd s) w (c w) /\ same_answers H (rd s) w (store_reader t) w) /\
  (forall sets, put_value_sets H (rd s) sets n = put_value_sets H (store_reader t) sets n /\ put_value_sets_with_proof H (rd s) sets n = put_value_sets_with_proof H (store_reader t) sets n) /\
  (forall bs, Forall (fun x => x <> []) bs -> batch_put_value_sets H (rd s) bs None n = batch_put_value_sets H (store_reader t) bs None n).
Proof using C CR.
  intros U. destruct (b_refines n f c s U) as (t & Ut & K). exists t. split; [exact Ut|]. split; [|split; [|split]].
  - intros w k. unfold get. by rewrite (kept_value n t s w k K).
  - intros w L1 L2. pose proof (kept_view n f c t s w Ut K L1 L2) as V. split; [by apply view_reader|]. eapply view_same; [exact V|]. eapply okay_view; [by apply in_use_okay|done|done].
  - intros sets. by destruct (kept_put n f c t s sets Ut K) as (P1 & P2 & _).
  - by destruct (kept_put n f c t s [] Ut K) as (_ & _ & P3).
Qed.
(** so it is a source for restores in its turn *)
Corollary C91_source n f c s w : b_in_use n f c s -> (f <= w)%N -> (w < n)%N -> source (rd s) w (c w).
Proof using C CR. intros U L1 L2. destruct (C91_serves n f c s U) as (t & Ut & _ & Q & _). exists n, f, c, t, w. split; [done|]. split; [done|]. split; [done|]. split; [done|]. by apply Q. Qed.
(** *** going on: what it returns is what the mock store returns, and if it accepts what is new, nothing fails *)
Theorem C91_goes_on n f c s more : b_in_use n f c s -> exists t, in_use H n f c t /\
  (forall s' ys, brun_from H rd write prune s n more = Ok (s', ys) -> exists t', run_from H t n more = Ok (t', ys) /\ b_in_use (n + num_versions more) (fold_left floor_step more (f, n)).1 (later n c more) s') /\
  (accepts write prune held -> exists s' ys, brun_from H rd write prune s n more = Ok (s', ys)).
Proof using C CR.
  intros U. destruct (b_refines n f c s U) as (t & Ut & K). exists t. split; [done|]. split.
  - intros s' ys E. destruct (kept_run more n f c t s s' ys Ut K E) as (t' & R & _). exists t'. split; [done|]. by eapply b_more.
  - intros A. by eapply kept_goes.
Qed.
(** *** restoring: from any source, whatever the chunks and crashes: every chunk is accepted, and [finish] leaves a store in use *)
Theorem C91_restores src ovf vs m v root evs s0 : accepts_nodes wnb held -> held s0 = Held ∅ ∅ ∅ -> source src vs m -> m <> ∅ -> ~ hash_broken H (root_inputs H m) -> get_root_hash H src vs = Ok root ->
  exists s r s', bdeliver_all H rd wnb ovf s0 src vs m v root (evs ++ [Deliver (size m)]) = Ok (s, r, []) /\ bfinish H wnb s r = Ok s' /\ b_in_use (v + 1) v (fun _ => m) s'.
Proof using C CR.
  intros A E0 Sr Ne NB Er. pose proof Sr as (n & f & c & t & w & U & L1 & L2 & Em & Sa). destruct (restore_sim src vs m n f c t w ovf s0 v root (evs ++ [Deliver (size m)]) U L1 L2 Em Sa E0 NB Er Ne) as (rs & l & Dt & Ert & D1 & D2).
  pose proof (C82_restore H n f c t ovf w v root evs U L1 L2) as Q. rewrite Em in Q. destruct (Q Ne NB Ert) as (rs2 & t' & Dt2 & Ft & _). rewrite Dt in Dt2. injection Dt2 as <- ->.
  destruct (D2 A) as (s & D). destruct (D1 _ _ _ D) as (_ & _ & Sm). destruct (sim_finish H rd wnb held CR s rs t' Sm Ft) as [_ S2]. destruct (S2 A) as (s' & F). exists s, (bare rs), s'. split; [done|]. split; [done|]. by eapply b_restored.
Qed.
(** beginning with any version *)
Theorem C91_first s0 v o set sets : accepts write prune held -> held s0 = Held ∅ ∅ ∅ -> op_sets o = set :: sets -> inserts set -> exists t s x, step H store_empty v o = Ok (t, x) /\ bstep H rd write prune s0 v o = Ok (s, x) /\
  b_in_use (v + N.of_nat (length (op_sets o))) v (fun w => contents_at (op_sets o) (w - v)) s.
Proof using C.
  intros [_ Aw] E0 Eo Hs. destruct (first_ok v o set sets Eo Hs) as (t & x & Et).
  assert (A : forall b, exists s, write s0 b = Ok s). { intros b. apply Aw; rewrite E0; [intros; reflexivity|intros log _ Z; by apply elem_of_empty in Z|intros w w' k _ [y Ey]; discriminate Ey]. }
  assert (B : exists s, bstep H rd write prune s0 v o = Ok (s, x)).
  { destruct o as [ss|ss|l]; cbn [step bstep] in *; [..|discriminate Eo].
    - apply bind_inv' in Et as ([roots b] & P & Et). apply bind_inv' in Et as (t1 & W & Et). injection Et as <- <-. destruct (first_put s0 v ss E0) as [Q _]. rewrite (Q _ P), bind_Ok. destruct (A b) as (s & ->). rewrite bind_Ok. eauto.
    - apply bind_inv' in Et as ([roots b] & P & Et). apply bind_inv' in Et as (t1 & W & Et). injection Et as <- <-. destruct (first_put s0 v ss E0) as [_ Q]. rewrite (Q _ P), bind_Ok. destruct (A b) as (s & ->). rewrite bind_Ok. eauto. }
  destruct B as (s & B). exists t, s, x. split; [done|]. split; [done|]. by eapply b_first.
Qed.
End borigin.

(** *** A concrete case: the archive of ThmBackend.v, with a search for the rightmost leaf *)
Definition ark_reader (s : holding) : reader := mkReader (rd_node (archive_reader s)) (rd_value (archive_reader s)) (store_rightmost (mkStore (h_nodes s) ∅ ∅ false)).
Definition ark_wnb (s : holding) (nodes : gmap nodekey node) (vals : gmap (version * key) (option value)) : outcome holding := Ok (Held (nodes ∪ h_nodes s) (vals ∪ h_values s) (h_stale s)).
Theorem ark_conforms lag : conforms ark_reader archive_write (archive_prune lag) id /\ accepts archive_write (archive_prune lag) id.
Proof. split; [|apply archive_accepts]. destruct (archive_conforms lag) as [C1 C2 C3 C4]. by split. Qed.
Theorem ark_restores : conforms_restore ark_reader ark_wnb id /\ accepts_nodes ark_wnb id.
Proof.
  split; [|intros s nodes vals _ _; eexists; reflexivity]. destruct (archive_conforms 0) as [C1 C2 _ _]. split; [exact C1|exact C2| |intros s nodes vals s' [= <-]; done].
  intros s. exact (store_rightmost_ok (mkStore (h_nodes s) ∅ ∅ false)).
Qed.
(** the demo history on it; a replica of version 4 as version 9 on another, with a crash on the way; and a change there *)
Theorem demo_ark : let e := Held ∅ ∅ ∅ in let bu := b_in_use toy ark_reader archive_write (archive_prune 9) ark_wnb id in
  exists s ys s1 r1 s2 s3 y3, brun_from toy ark_reader archive_write (archive_prune 9) e 0 demo = Ok (s, ys) /\
  bdeliver_all toy ark_reader ark_wnb true e (ark_reader s) 4 demo_map 9 (smt_root toy demo_map) [Deliver 0; Crash; Deliver 3] = Ok (s1, r1, []) /\ bfinish toy ark_wnb s1 r1 = Ok s2 /\ bu 10%N 9%N (fun _ => demo_map) s2 /\
  brun_from toy ark_reader archive_write (archive_prune 9) s2 10 [CommitP [[(K80, None)]]] = Ok (s3, y3) /\
  get_root_hash toy (ark_reader s3) 10 = Ok (smt_root toy {[ K00 := vb; KC0 := vc ]}) /\ get_root_hash toy (ark_reader s3) 9 = Ok (smt_root toy demo_map).
Proof.
  intros e bu. destruct (ark_conforms 9) as [Cf Ac]. destruct ark_restores as [Cr An].
  destruct (C91_goes_on toy ark_reader archive_write (archive_prune 9) ark_wnb id Cf Cr 0 0 _ e demo (b_empty toy ark_reader archive_write (archive_prune 9) ark_wnb id e eq_refl)) as (tm & _ & G1 & G2).
  destruct (G2 Ac) as (s & ys & R). destruct (G1 _ _ R) as (_ & _ & U). clear G1 G2 tm. assert (E5 : (0 + num_versions demo)%N = 5%N) by reflexivity. assert (Ef : (fold_left floor_step demo (0, 0)%N).1 = 2%N) by reflexivity. rewrite E5, Ef in U.
  set (c := later 0 (fun _ => ∅) demo) in *. assert (Ec : c 4%N = demo_map) by (apply (bool_decide_eq_true_1 _); vm_compute; reflexivity).
  pose proof (C91_source toy ark_reader archive_write (archive_prune 9) ark_wnb id Cf Cr 5 2 c s 4 U ltac:(lia) ltac:(lia)) as Sr. rewrite Ec in Sr.
  assert (Er : get_root_hash toy (ark_reader s) 4 = Ok (smt_root toy demo_map)).
  { destruct (C91_serves toy ark_reader archive_write (archive_prune 9) ark_wnb id Cf Cr 5 2 c s U) as (tm & _ & _ & Q & _). destruct (Q 4%N ltac:(lia) ltac:(lia)) as [(_ & _ & Er & _) _]. rewrite Ec in Er. exact Er. }
  assert (Ne : demo_map <> ∅) by (intros Z; apply (f_equal (lookup K00)) in Z; revert Z; vm_compute; discriminate).
  assert (Sz : size demo_map = 3) by (vm_compute; reflexivity).
  destruct (C91_restores toy ark_reader archive_write (archive_prune 9) ark_wnb id Cf Cr (ark_reader s) true 4 demo_map 9 (smt_root toy demo_map) [Deliver 0; Crash] e An eq_refl Sr Ne toy_demo Er) as (s1 & r1 & s2 & D & F & U2).
  rewrite Sz in D. cbn [app] in D. change (9 + 1)%N with 10%N in U2.
  destruct (C91_goes_on toy ark_reader archive_write (archive_prune 9) ark_wnb id Cf Cr 10 9 _ s2 [CommitP [[(K80, None)]]] U2) as (tm & _ & G1 & G2). destruct (G2 Ac) as (s3 & y3 & R3). destruct (G1 _ _ R3) as (_ & _ & U3). clear G1 G2 tm.
  change (10 + num_versions [CommitP [[(K80, None)]]])%N with 11%N in U3. change (fold_left floor_step [CommitP [[(K80, None)]]] (9, 10)%N).1 with 9%N in U3.
  set (c3 := later 10 (fun _ => demo_map) [CommitP [[(K80, None)]]]) in *. assert (E39 : c3 9%N = demo_map) by reflexivity. assert (E310 : c3 10%N = {[ K00 := vb; KC0 := vc ]}) by (apply (bool_decide_eq_true_1 _); vm_compute; reflexivity).
  destruct (C91_serves toy ark_reader archive_write (archive_prune 9) ark_wnb id Cf Cr 11 9 c3 s3 U3) as (tm & _ & _ & Q & _).
  exists s, ys, s1, r1, s2, s3, y3. split; [exact R|]. split; [exact D|]. split; [exact F|]. split; [exact U2|]. split; [exact R3|]. split.
  - destruct (Q 10%N ltac:(lia) ltac:(lia)) as [(_ & _ & Er3 & _) _]. rewrite E310 in Er3. exact Er3.
  - destruct (Q 9%N ltac:(lia) ltac:(lia)) as [(_ & _ & Er3 & _) _]. rewrite E39 in Er3. exact Er3.
Qed.
