(** C96: every single request answered on its own, on any store that keeps the contract of TreeReader and TreeWriter (C89, C91, C93): a query runs while the store commits, prunes and crashes,
    asks for the same node twice and may find it in two states, and requests may fail; commits run while the store is being pruned. *)
From Coq Require Import Strings.String.
From Verif Require Import Restore.
From Verif Require Import Base Spec SpecOrder SpecRange NodeType ProofDef TreeCache Tree BatchTree Mock MockSteps MockStepFacts Driver Iterator Exclusion KeyFacts SmtFacts ProofFacts NodeFacts Canon CanonSib ReadFacts PutFacts InsertFacts PutTop VersionFacts KeyOrder OrderFacts ValueFacts StoreFacts DriverFacts DriverFacts2 LeafVersion IterFacts ExclFacts ThmProof ThmStore ThmStore2 Demo Toy RangeFacts ThmRange ThmIter ThmExcl
  RestoreFacts RestoreDriver RestoreRun ThmCrash ThmPurged CommitMono ThmOrigin ThmContinue ThmRedo ThmBackend ThmBRestore ThmBOrigin ThmBConc Requests RequestFacts RequestSafe ThmRequests.
From Coq Require Import Lia.
Local Opaque Spec.smt root_inputs ms_in.

Section breq.
Context (H : list byte -> bytes32) {T : Type}.
Context (rd : T -> reader) (write : T -> tree_batch -> outcome T) (prune : T -> version -> outcome T)
  (wnb : T -> gmap nodekey node -> gmap (version * key) (option value) -> outcome T) (held : T -> holding).
(** *** Specification *)
(** the answers found in any one of the states [P] of the store ... *)
Definition b_node (P : T -> Prop) (nk : nodekey) (r : outcome (option node)) : Prop := exists s, P s /\ r = Ok (rd_node (rd s) nk).
Definition b_value (P : T -> Prop) (w : version) (k : key) (r : outcome (option value)) : Prop := exists s, P s /\ r = Ok (rd_value (rd s) w k).
(** ... and requests may fail *)
Definition b_node_or_fail (P : T -> Prop) (nk : nodekey) (r : outcome (option node)) : Prop := b_node P nk r \/ forall y, r <> Ok y.
Definition b_value_or_fail (P : T -> Prop) (w : version) (k : key) (r : outcome (option value)) : Prop := b_value P w k r \/ forall y, r <> Ok y.
(** The states a store passes through from [s] on while nothing but pruning goes on: between two prunings, or in the middle of one. *)
Inductive b_pruning (n : version) (s : T) : T -> Prop :=
| bq_between more s1 ys : Forall (fun o => is_purge o = true) more -> brun_from H rd write prune s n more = Ok (s1, ys) -> b_pruning n s s1
| bq_within more s1 ys l s2 : Forall (fun o => is_purge o = true) more -> brun_from H rd write prune s n more = Ok (s1, ys) -> partly_dropped l (held s1) (held s2) -> b_pruning n s s2.

(** *** Proof *)
Context (C : conforms rd write prune held) (CR : conforms_restore rd wnb held).
Notation b_in_use := (b_in_use H rd write prune wnb held).
Notation kept := (kept held).
Notation b_passes := (b_passes H rd write prune held).
Lemma b_run_values more : forall n f c t s s1 ys, in_use H n f c t -> kept n t s -> brun_from H rd write prune s n more = Ok (s1, ys) -> forall w k, (w < n)%N -> rd_value (rd s1) w k = rd_value (rd s) w k.
Proof using C CR.
  induction more as [|o more IH]; intros n f c t s s1 ys U K R w k L; cbn [brun_from] in R; [injection R as <- _; done|].
  apply bind_inv' in R as ([s' x] & E & R). apply bind_inv' in R as ([s'' zs] & R & E2). injection E2 as <- _.
  destruct (kept_step H rd write prune held C n f c t s o s' x U K E) as (t' & St & K'). destruct (in_use_step H n f c t o U) as (t2 & x' & f' & c' & E' & U'). rewrite St in E'. injection E' as <- _.
  rewrite (IH _ _ _ _ _ _ _ U' K' R w k) by lia. destruct o as [sets|sets|l]; cbn [bstep] in E.
  - apply bind_inv' in E as ([roots b] & P & E). apply bind_inv' in E as (sx & W & E). injection E as <- _.
    refine (proj1 (proj2 (stored_keeps H rd write prune held C n f c t s sets roots b sx U K P _)) w k L).
    exists (tb_nodes b), (tb_values b), (tb_stale b). split; [done|]. split; [done|]. split; [done|]. by apply (cf_write _ _ _ _ C).
  - apply bind_inv' in E as ([roots b] & P & E). apply bind_inv' in E as (sx & W & E). injection E as <- _.
    destruct (C82_commit H n f c t sets true U) as (roots' & pfss & b' & P1 & P2 & _). destruct (kept_put H rd write prune held C n f c t s sets U K) as (Ep & Ep2 & _). rewrite Ep2, P2 in P. injection P as _ <-. rewrite <- Ep in P1.
    refine (proj1 (proj2 (stored_keeps H rd write prune held C n f c t s sets roots' b' sx U K P1 _)) w k L).
    exists (tb_nodes b'), (tb_values b'), (tb_stale b'). split; [done|]. split; [done|]. split; [done|]. by apply (cf_write _ _ _ _ C).
  - apply bind_inv' in E as (sx & P & E). injection E as <- _. apply (cf_prune _ _ _ _ C) in P as (D & _ & _ & _ & Ev & _). apply option_eq. intros y. rewrite !(cf_value _ _ _ _ C), Ev. done.
Qed.
Lemma b_passes_values n f c s v s' : b_in_use n f c s -> b_passes n f s v s' -> forall w k, (w < n)%N -> rd_value (rd s') w k = rd_value (rd s) w k.
Proof using C CR.
  intros U P w k L. destruct (b_refines H rd write prune wnb held C CR _ _ _ _ U) as (t & Ut & K).
  destruct P as [more s1 ys R Lf|more s1 ys sets roots b s2 R Lf P Ps|more s1 ys l s2 R Lf Ps]; rewrite <- (b_run_values more n f c t s s1 ys Ut K R w k L).
  - done.
  - destruct (kept_run H rd write prune held C more n f c t s s1 ys Ut K R) as (t1 & R1 & K1). pose proof (in_use_more H n f c t more t1 ys Ut R1) as U1.
    exact (proj1 (proj2 (stored_keeps H rd write prune held C _ _ _ t1 s1 sets roots b s2 U1 K1 P Ps)) w k ltac:(lia)).
  - destruct Ps as (Ev & _). apply option_eq. intros y. rewrite !(cf_value _ _ _ _ C), Ev. done.
Qed.
Local Instance needs_dec'' ver M v nk : Decision (needs ver M v nk).
Proof. unfold needs. apply _. Defined.
Definition b_min (ver : list nibble -> version) (v n : version) (m : gmap key value) (s : T) : reader :=
  mkReader (fun nk => if decide (needs ver (H <$> m) v nk) then Some (node_at H (H <$> m) ver nk.2) else None) (fun w k => if decide (w < n)%N then rd_value (rd s) w k else None) None.
Lemma b_min_view ver v n m s : vview H ver (rd s) v m -> (v < n)%N -> (forall p i, rd_node (rd s) (ver (p ++ [i]), p ++ [i]) <> None -> (ver (p ++ [i]) < n)%N) -> vview H ver (b_min ver v n m s) v m.
Proof using.
  intros ([V0 V1] & V2 & V3) L B. split; [split|split].
  - cbn. by rewrite decide_True by (by left).
  - intros p Hp i Ne. cbn. rewrite decide_True; [done|]. right. cbn [fst snd]. rewrite parent_snoc. split_and!; [by destruct p|done..].
  - intros p i k y Mn EU. pose proof (V1 p ltac:(by rewrite U_fm_size) i) as Q. cbn. rewrite decide_True; [by eapply V2|].
    apply (B p i). rewrite Q; [done|]. rewrite U_fm, EU, map_fmap_singleton. apply insert_non_empty.
  - intros k. cbn. by rewrite decide_True.
Qed.
Lemma b_settle n f c s v : b_in_use n f c s -> (f <= v)%N -> (v < n)%N -> exists ver, vview H ver (b_min ver v n (c v) s) v (c v) /\
  forall (fl : Prop) (an : nodekey -> outcome (option node) -> Prop) (av : version -> key -> outcome (option value) -> Prop), (forall nk r, an nk r -> b_node (b_passes n f s v) nk r \/ (fl /\ failed r)) -> (forall w k r, av w k r -> b_value (b_passes n f s v) w k r \/ (fl /\ failed r)) ->
    let r0 := b_min ver v n (c v) s in
    (forall nk r, an nk r -> rd_node r0 nk <> None -> r = Ok (rd_node r0 nk) \/ (fl /\ (failed r \/ r = Ok None))) /\ fair_v fl r0 av /\
    (forall k r, av v k r -> r = Ok (rd_value r0 v k) \/ (fl /\ failed r)).
Proof using C CR.
  intros U L1 L2. destruct (b_passes_view H rd write prune wnb held C CR n f c s v U L1 L2) as (ver & V). exists ver.
  assert (Ps : b_passes n f s v s) by (apply (bp_between H rd write prune held n f s v [] s []); [done|done]).
  destruct (b_refines H rd write prune wnb held C CR _ _ _ _ U) as (t & Ut & K). split.
  - apply b_min_view; [by apply V|done|]. intros p i Nn. destruct (rd_node (rd s) _) as [nd|] eqn:E; [|done]. rewrite (cf_node _ _ _ _ C) in E. destruct K as (_ & K & _). by apply K in E.
  - intros fl an av Han Hav r0. split; [|split].
    + intros nk r Ar N. destruct (Han _ _ Ar) as [(s' & Ps' & ->)|[Fl F]]; [left|by right; split; [|left]]. cbn in N |- *. case_decide as D; [|done]. destruct (V s' Ps') as (St & _). f_equal. exact (needs_stored H _ _ _ _ _ St D).
    + intros w k r Ar N. destruct (Hav _ _ _ Ar) as [(s' & Ps' & ->)|[Fl F]]; [left|by right; split; [|left]]. cbn in N |- *. case_decide as D; [|done]. f_equal. by apply (b_passes_values n f c s v s').
    + intros k r Ar. destruct (Hav _ _ _ Ar) as [(s' & Ps' & ->)|[Fl F]]; [left|by right; split]. cbn. rewrite decide_True by done. f_equal. by apply (b_passes_values n f c s v s').
Qed.

(** *** C96: reads *)
(** Every query about a version that is kept, and every iterator over it, gets the answer of the store at rest - an iterator the entries -, whichever state each single request finds. *)
Theorem C96_reads n f c s v : b_in_use n f c s -> (f <= v)%N -> (v < n)%N ->
  let an := b_node (b_passes n f s v) in let av := b_value (b_passes n f s v) in
  queries_as H equal an av (rd s) v /\
  (forall o, may an av (get_root_hash_option_p H v) o -> o = get_root_hash_option H (rd s) v) /\
  (forall start, exists it, iter_new (rd s) v start = Ok it /\ gives equal an av it (entries_from start (c v))) /\
  (forall i, exists it, iter_new_by_index (rd s) v i = Ok it /\ gives equal an av it (drop i (entries (c v)))).
Proof using C CR.
  intros U L1 L2 an av. destruct (b_settle n f c s v U L1 L2) as (ver & V & G). set (r0 := b_min ver v n (c v) s) in *.
  destruct (G False an av) as (An & Av & Avv); [by left|by left|]. clear G.
  assert (Ps : b_passes n f s v s) by (apply (bp_between H rd write prune held n f s v [] s []); [done|done]).
  assert (RM : forall A (p : prog A), may an av p (runp (rd s) p)) by (intros A p; apply runp_may; [intros nk; by exists s|intros w k; by exists s]).
  pose proof (set_queries H False an av r0 ver v (c v) V An Av Avv) as (Q1 & Q2 & Q3 & Q4 & Q5 & Q6 & Q7 & Q8).
  assert (X : forall A (o o' : outcome A), o = o' \/ (False /\ failed o) -> o = o') by (intros A o o' [->|[[] _]]; done).
  assert (Gv : forall l it, gives (fun A o o' => o = o' \/ (False /\ failed o)) an av it l -> gives equal an av it l).
  { induction l as [|kx l IH]; intros it; cbn [gives]; [intros G o M; by apply X, G|]. intros (it' & G & G'). exists it'. split; [|by apply IH]. intros o M. by apply X, G. }
  unfold queries_as, equal. split; [split_and!|split; [|split]].
  - intros k o M. rewrite (X _ _ _ (Q1 k o M)). rewrite <- (get_p_ok (rd s)). symmetry. apply X, Q1, RM.
  - intros k o M. rewrite (X _ _ _ (Q2 k o M)). rewrite <- (get_with_proof_p_ok H (rd s)). symmetry. apply X, Q2, RM.
  - intros o M. rewrite (X _ _ _ (Q3 o M)). rewrite <- (get_root_hash_p_ok H (rd s)). symmetry. apply X, Q3, RM.
  - intros o M. rewrite (X _ _ _ (Q4 o M)). rewrite <- (get_leaf_count_p_ok (rd s)). symmetry. apply X, Q4, RM.
  - intros k o M. rewrite (X _ _ _ (Q5 k o M)). rewrite <- (get_range_proof_p_ok H (rd s)). symmetry. apply X, Q5, RM.
  - intros k o M. rewrite (X _ _ _ (Q6 k o M)). rewrite <- (get_with_exclusion_proof_p_ok H (rd s)). symmetry. apply X, Q6, RM.
  - intros k o M. rewrite (X _ _ _ (Q7 k o M)). rewrite <- (iter_new_p_ok (rd s)). symmetry. apply X, Q7, RM.
  - intros k o M. rewrite (X _ _ _ (Q8 k o M)). rewrite <- (iter_new_by_index_p_ok (rd s)). symmetry. apply X, Q8, RM.
  - assert (Y : forall o, may an av (get_root_hash_option_p H v) o -> o = get_root_hash_option H r0 v).
    { intros o M. rewrite <- get_root_hash_option_p_ok. unfold get_root_hash_option_p in *. apply may_bind in M as (o1 & M1 & M2). rewrite runp_bind. unfold req_node_option in *. inversion M1 as [|nk' k' r o' Ar M'|]; subst. inversion M'; subst.
      assert (N : rd_node r0 (nk_root v) <> None) by (destruct V as ([Rt _] & _); unfold nk_root; by rewrite Rt). destruct (An _ _ Ar N) as [->|[[] _]]. cbn [runp] in *. inversion M2; subst. done. }
    intros o M. rewrite (Y o M). rewrite <- (get_root_hash_option_p_ok H (rd s)). symmetry. apply Y, RM.
  - intros start. destruct (iter_new_ok H (c v) ver r0 v (proj1 V) start) as (it & E & Rt). exists it. split.
    + rewrite <- (iter_new_p_ok (rd s)), <- E. apply X, Q7, RM.
    + apply Gv. by apply (set_rest H False an av r0 ver v (c v) V An Av).
  - intros i. destruct (iter_new_by_index_ok H (c v) ver r0 v (proj1 V) i) as (it & E & Rt). exists it. split.
    + rewrite <- (iter_new_by_index_p_ok (rd s)), <- E. apply X, Q8, RM.
    + apply Gv. by apply (set_rest H False an av r0 ver v (c v) V An Av).
Qed.
(** ... and if requests may fail, the answer of the store at rest or an error. *)
Theorem C96_reads_fail n f c s v : b_in_use n f c s -> (f <= v)%N -> (v < n)%N ->
  let an := b_node_or_fail (b_passes n f s v) in let av := b_value_or_fail (b_passes n f s v) in
  queries_as H equal_or_fails an av (rd s) v /\
  (forall start it, iter_new (rd s) v start = Ok it -> gives equal_or_fails an av it (entries_from start (c v))) /\
  (forall i it, iter_new_by_index (rd s) v i = Ok it -> gives equal_or_fails an av it (drop i (entries (c v)))).
Proof using C CR.
  intros U L1 L2 an av. destruct (b_settle n f c s v U L1 L2) as (ver & V & G). set (r0 := b_min ver v n (c v) s) in *.
  destruct (G True an av) as (An & Av & Avv); [intros nk r [?|F]; [by left|by right]|intros w k r [?|F]; [by left|by right]|].
  destruct (G False (b_node (b_passes n f s v)) (b_value (b_passes n f s v))) as (An' & Av' & Avv'); [by left|by left|]. clear G.
  assert (Ps : b_passes n f s v s) by (apply (bp_between H rd write prune held n f s v [] s []); [done|done]).
  assert (RM : forall A (p : prog A), may (b_node (b_passes n f s v)) (b_value (b_passes n f s v)) p (runp (rd s) p)) by (intros A p; apply runp_may; [intros nk; by exists s|intros w k; by exists s]).
  pose proof (set_queries H True an av r0 ver v (c v) V An Av Avv) as (Q1 & Q2 & Q3 & Q4 & Q5 & Q6 & Q7 & Q8).
  pose proof (set_queries H False _ _ r0 ver v (c v) V An' Av' Avv') as (P1 & P2 & P3 & P4 & P5 & P6 & P7 & P8).
  assert (Z : forall A (o o' : outcome A), o = o' \/ (False /\ failed o) -> o = o') by (intros A o o' [->|[[] _]]; done).
  assert (X : forall A (o o' o'' : outcome A), o = o' \/ (True /\ failed o) -> o'' = o' \/ (False /\ failed o'') -> equal_or_fails A o o'') by (intros A o o' o'' [->|[_ F]] [->|[[] _]]; [by left|by right]).
  assert (Gv : forall l it, gives (fun A o o' => o = o' \/ (True /\ failed o)) an av it l -> gives equal_or_fails an av it l).
  { assert (X' : forall A (o o' : outcome A), o = o' \/ (True /\ failed o) -> equal_or_fails A o o') by (intros A o o' [->|[_ F]]; [by left|by right]).
    induction l as [|kx l IH]; intros it; cbn [gives]; [intros G o M; by apply X', G|]. intros (it' & G & G'). exists it'. split; [|by apply IH]. intros o M. by apply X', G. }
  unfold queries_as. split; [split_and!|split].
  - intros k o M. rewrite <- (get_p_ok (rd s)). eapply X; [by apply Q1|apply P1, RM].
  - intros k o M. rewrite <- (get_with_proof_p_ok H (rd s)). eapply X; [by apply Q2|apply P2, RM].
  - intros o M. rewrite <- (get_root_hash_p_ok H (rd s)). eapply X; [by apply Q3|apply P3, RM].
  - intros o M. rewrite <- (get_leaf_count_p_ok (rd s)). eapply X; [by apply Q4|apply P4, RM].
  - intros k o M. rewrite <- (get_range_proof_p_ok H (rd s)). eapply X; [by apply Q5|apply P5, RM].
  - intros k o M. rewrite <- (get_with_exclusion_proof_p_ok H (rd s)). eapply X; [by apply Q6|apply P6, RM].
  - intros k o M. rewrite <- (iter_new_p_ok (rd s)). eapply X; [by apply Q7|apply P7, RM].
  - intros k o M. rewrite <- (iter_new_by_index_p_ok (rd s)). eapply X; [by apply Q8|apply P8, RM].
  - intros start it E. destruct (iter_new_ok H (c v) ver r0 v (proj1 V) start) as (it' & E' & Rt). rewrite <- (iter_new_p_ok (rd s)), (Z _ _ _ (P7 start _ (RM _ _))), E' in E. injection E as <-.
    apply Gv. by apply (set_rest H True an av r0 ver v (c v) V An Av).
  - intros i it E. destruct (iter_new_by_index_ok H (c v) ver r0 v (proj1 V) i) as (it' & E' & Rt). rewrite <- (iter_new_by_index_p_ok (rd s)), (Z _ _ _ (P8 i _ (RM _ _))), E' in E. injection E as <-.
    apply Gv. by apply (set_rest H True an av r0 ver v (c v) V An Av).
Qed.

(** *** C96: commits *)
Lemma pruning_kept n f c t s t0 : in_use H n f c t -> kept n t s -> purge_stale_nodes t (n - 1) = Ok t0 -> forall s', b_pruning n s s' -> kept n t0 s'.
Proof using C.
  intros U K P. assert (E0 : st_stale t0 = ∅).
  { pose proof P as Ps. apply (purge_loop_stale rd write prune held C) in Ps. rewrite Ps. apply (anti_symm (⊆)); [|apply empty_subseteq]. intros [w nk] Z. apply elem_of_difference in Z as [Z Nz]. exfalso. apply Nz.
    apply elem_of_list_to_set, elem_of_elements, elem_of_filter. split; [|done]. cbn. pose proof (in_use_versions H n f c t U) as (_ & Q & _). destruct (Q _ _ Z). lia. }
  assert (Pg : forall l, purge_stale_nodes t0 l = Ok t0) by (intros l; unfold purge_stale_nodes; rewrite E0; reflexivity).
  assert (K0 : kept n t0 s). { eapply (kept_half rd write prune held C n t s (n - 1)); [done|done|]. split; [done|]. split; [done|]. intros nk. by left. }
  assert (B : forall more s0 s1 ys, Forall (fun o => is_purge o = true) more -> kept n t0 s0 -> brun_from H rd write prune s0 n more = Ok (s1, ys) -> kept n t0 s1).
  { induction more as [|o more IH]; intros s0 s1 ys F K1 R; cbn [brun_from] in R; [injection R as <- _; done|]. apply Forall_cons in F as [Fo F]. destruct o as [sets|sets|l]; [done|done|].
    apply bind_inv' in R as ([s' x] & E & R). apply bind_inv' in R as ([s'' zs] & R & E2). injection E2 as <- _. cbn [op_sets length] in R. rewrite N.add_0_r in R. eapply IH; [done| |exact R].
    cbn [bstep] in E. apply bind_inv' in E as (sx & Ep & E). injection E as <- _. by eapply (kept_prune rd write prune held C n t0 s0 l t0). }
  intros s' [more s1 ys F R|more s1 ys l s2 F R Pd]; [by eapply B|]. eapply (kept_half rd write prune held C n t0 s1 l); [by eapply B|done|done].
Qed.
Theorem C96_commits n f c s : b_in_use n f c s ->
  commits_as H equal (b_node (b_pruning n s)) (b_value (b_pruning n s)) (rd s) n /\
  commits_as H equal_or_fails (b_node_or_fail (b_pruning n s)) (b_value_or_fail (b_pruning n s)) (rd s) n.
Proof using C CR.
  intros U. destruct (b_refines H rd write prune wnb held C CR _ _ _ _ U) as (t & Ut & K). destruct (C82_goes_on H n f c t [Purge (n - 1)] Ut) as (t0 & ys & R & U0).
  cbn [run_from] in R. apply bind_inv' in R as ([t1 x] & E & R). rewrite bind_Ok in R. injection R as <- _. cbn [step] in E. apply bind_inv' in E as (t2 & P & E). injection E as -> _.
  assert (En : (n + num_versions [Purge (n - 1)])%N = n) by (unfold num_versions; cbn; lia). rewrite En in U0. set (f0 := (fold_left floor_step [Purge (n - 1)] (f, n)).1) in *. set (c0 := later n c [Purge (n - 1)]) in *.
  pose proof (pruning_kept n f c t s t1 Ut K P) as Kp.
  assert (Ps : b_pruning n s s) by (apply (bq_between n s [] s []); [constructor|done]).
  assert (Ex : forall s' nk, b_pruning n s s' -> rd_node (store_reader t1) nk <> None \/ late_root (n - 1) nk = true -> rd_node (rd s') nk = rd_node (store_reader t1) nk).
  { intros s' nk Q Nk. rewrite (cf_node _ _ _ _ C). destruct (Kp _ Q) as (C1 & C2 & _). cbn in Nk |- *. destruct (st_nodes t1 !! nk) as [nd|] eqn:E; [by apply C1|]. destruct Nk as [Nk|Nk]; [done|]. apply bool_decide_eq_true_1 in Nk as [Np Nv].
    destruct (h_nodes (held s') !! nk) as [nd|] eqn:E'; [|done]. apply C2 in E'. exfalso. pose proof (okay_view H _ _ _ _ (n - 1)%N (in_use_okay H _ _ _ _ U0)) as V.
    pose proof (in_use_lt H _ _ _ _ U0) as Lt. destruct V as (ver & [Rt _] & _); [lia|lia|]. destruct nk as [w p]. cbn [fst snd] in *. subst p. replace w with (n - 1)%N in E by lia. cbn in Rt. congruence. }
  assert (Exv : forall s' w k, b_pruning n s s' -> rd_value (rd s') w k = rd_value (store_reader t1) w k) by (intros s' w k Q; by apply (kept_value rd write prune held C n), Kp).
  assert (G : forall (fl : Prop) (an : nodekey -> outcome (option node) -> Prop) (av : version -> key -> outcome (option value) -> Prop),
    (forall nk r, an nk r -> b_node (b_pruning n s) nk r \/ (fl /\ failed r)) -> (forall w k r, av w k r -> b_value (b_pruning n s) w k r \/ (fl /\ failed r)) ->
    forall A (p : prog A) (Q : A -> Prop) y, safe (late_root (n - 1)) Q p -> runp (store_reader t1) p = Ok y -> forall o, may an av p o -> o = runp (rd s) p \/ (fl /\ failed o)).
  { intros fl an av Han Hav A p Q y S E o M.
    assert (Y : runp (rd s) p = Ok y).
    { eapply (safe_exact (store_reader t1) (b_node (b_pruning n s)) (b_value (b_pruning n s)) (late_root (n - 1))); [..|exact S|exact E|].
      - intros nk r (s' & Ps' & ->) Nk. f_equal. by apply Ex.
      - intros w k r (s' & Ps' & ->) _. f_equal. by apply Exv.
      - apply runp_may; [intros nk; by exists s|intros w k; by exists s]. }
    rewrite Y, <- E. eapply (settled_safe fl (store_reader t1) an av (late_root (n - 1))); [..|exact S|exact E|exact M].
    - intros nk r Ar Nk. destruct (Han _ _ Ar) as [(s' & Ps' & ->)|[Fl F]]; [left; f_equal; by apply Ex|right; split; [done|by left]].
    - intros w k r Ar _. destruct (Hav _ _ _ Ar) as [(s' & Ps' & ->)|[Fl F]]; [left; f_equal; by apply Exv|right; split; [done|by left]]. }
  assert (OK : forall sets, (exists y, put_value_sets H (store_reader t1) sets n = Ok y) /\ (exists y, put_value_sets_with_proof H (store_reader t1) sets n = Ok y)).
  { intros sets. destruct (C82_commit H n f0 c0 t1 sets true U0) as (roots & pfss & b & P1 & P2 & _). eauto. }
  assert (OKb : forall ins, Forall (fun x => x <> []) ins -> exists y, batch_put_value_sets H (store_reader t1) ins None n = Ok y).
  { intros ins F. rewrite (C82_batch H n f0 c0 t1 ins U0 F). apply OK. }
  assert (Cm : forall (fl : Prop) (an : nodekey -> outcome (option node) -> Prop) (av : version -> key -> outcome (option value) -> Prop),
    (forall nk r, an nk r -> b_node (b_pruning n s) nk r \/ (fl /\ failed r)) -> (forall w k r, av w k r -> b_value (b_pruning n s) w k r \/ (fl /\ failed r)) ->
    commits_as H (fun A o o' => o = o' \/ (fl /\ failed o)) an av (rd s) n).
  { intros fl an av Han Hav. unfold commits_as. split_and!.
    - intros sets o M. rewrite <- put_value_sets_p_ok. destruct (OK sets) as [(y & E) _]. eapply (G fl an av Han Hav _ _ _ y); [apply safe_put_value_sets; lia|by rewrite put_value_sets_p_ok|exact M].
    - intros sets o M. rewrite <- put_value_sets_with_proof_p_ok. destruct (OK sets) as [_ (y & E)]. eapply (G fl an av Han Hav _ _ _ y); [apply safe_put_value_sets_wp; lia|by rewrite put_value_sets_with_proof_p_ok|exact M].
    - intros ins o F M. rewrite <- batch_put_value_sets_p_ok. destruct (OKb ins F) as (y & E). eapply (G fl an av Han Hav _ _ _ y); [apply safe_batch_put; lia|by rewrite batch_put_value_sets_p_ok|exact M]. }
  split.
  - destruct (Cm False (b_node (b_pruning n s)) (b_value (b_pruning n s))) as (C1 & C2 & C3); [by left|by left|]. unfold commits_as, equal.
    split_and!; [intros sets o M; destruct (C1 sets o M) as [?|[[] _]]; done|intros sets o M; destruct (C2 sets o M) as [?|[[] _]]; done|intros ins o F M; destruct (C3 ins o F M) as [?|[[] _]]; done].
  - destruct (Cm True (b_node_or_fail (b_pruning n s)) (b_value_or_fail (b_pruning n s))) as (C1 & C2 & C3); [intros nk r [?|F]; [by left|by right]|intros w k r [?|F]; [by left|by right]|]. unfold commits_as, equal_or_fails.
    split_and!; [intros sets o M; destruct (C1 sets o M) as [?|[_ ?]]|intros sets o M; destruct (C2 sets o M) as [?|[_ ?]]|intros ins o F M; destruct (C3 ins o F M) as [?|[_ ?]]]; first [by left|by right].
Qed.
End breq.

(** *** A concrete case: after [demo] (Demo.v) on an archiving store that prunes at once; every other request finds the store pruned up to version 4, and in the middle of the commit of version 5
    (all its nodes written, none of its values); every other request of a commit finds the store before and after the pruning. *)
Definition breq_states : outcome (holding * holding * holding) :=
  '(s, _) ← brun_from toy ark_reader archive_write (archive_prune 0) (Held ∅ ∅ ∅) 0 demo; '(s1, _) ← brun_from toy ark_reader archive_write (archive_prune 0) s 5 [Purge 4];
  '(_, b) ← put_value_sets toy (ark_reader s) [[(K80, None)]] 5; Ok (s, s1, Held (tb_nodes b ∪ h_nodes s) (h_values s) (h_stale s)).
Definition breq_check : bool :=
  match breq_states with
  | Ok (s, s1, s2) => (size (h_nodes s1) <? size (h_nodes s))%nat && (size (h_nodes s) <? size (h_nodes s2))%nat &&
      is_ok (alternate (ark_reader s1) (ark_reader s2) (get_with_proof_p toy K80 4)) && is_ok (alternate (ark_reader s2) (ark_reader s1) (get_with_exclusion_proof_p toy K00 4)) &&
      is_ok (alternate (ark_reader s) (ark_reader s1) (put_value_sets_with_proof_p toy [[(K00, Some vc)]; [(KC0, None); (K00, Some va)]] 5)) &&
      negb (is_ok (fail_after 1 (ark_reader s) (put_value_sets_p toy [[(K00, Some vc)]] 5)))
  | _ => false
  end.
Theorem demo_breq : breq_check = true /\ exists s s1 s2, breq_states = Ok (s, s1, s2) /\ b_in_use toy ark_reader archive_write (archive_prune 0) ark_wnb id 5 2 (later 0 (fun _ => ∅) demo) s /\
  (let P := b_passes toy ark_reader archive_write (archive_prune 0) id 5 2 s 4 in forall A (p : prog A), may (b_node ark_reader P) (b_value ark_reader P) p (alternate (ark_reader s1) (ark_reader s2) p)) /\
  (let P := b_pruning toy ark_reader archive_write (archive_prune 0) id 5 s in forall A (p : prog A), may (b_node ark_reader P) (b_value ark_reader P) p (alternate (ark_reader s) (ark_reader s1) p)).
Proof.
  split; [vm_compute; reflexivity|]. destruct (ark_conforms 0) as [Cf Ac]. destruct ark_restores as [Cr An]. set (e := Held ∅ ∅ ∅).
  destruct (C91_goes_on toy ark_reader archive_write (archive_prune 0) ark_wnb id Cf Cr 0 0 _ e demo (b_empty toy ark_reader archive_write (archive_prune 0) ark_wnb id e eq_refl)) as (tm & _ & G1 & G2).
  destruct (G2 Ac) as (s & ys & R). destruct (G1 _ _ R) as (_ & _ & U). clear G1 G2 tm. assert (E5 : (0 + num_versions demo)%N = 5%N) by reflexivity. assert (Ef : (fold_left floor_step demo (0, 0)%N).1 = 2%N) by reflexivity. rewrite E5, Ef in U.
  destruct (C91_goes_on toy ark_reader archive_write (archive_prune 0) ark_wnb id Cf Cr 5 2 _ s [Purge 4] U) as (tm & _ & _ & G2). destruct (G2 Ac) as (s1 & zs & R1). clear G2 tm.
  assert (Q : match breq_states with Ok _ => true | _ => false end = true) by (vm_compute; reflexivity). assert (Es : exists roots b, put_value_sets toy (ark_reader s) [[(K80, None)]] 5 = Ok (roots, b)).
  { unfold breq_states in Q. fold e in Q. rewrite R, bind_Ok, R1, bind_Ok in Q. destruct (put_value_sets toy (ark_reader s) [[(K80, None)]] 5) as [[roots b]| |]; [eauto|discriminate Q|discriminate Q]. }
  clear Q. destruct Es as (roots & b & P). set (s2 := Held (tb_nodes b ∪ h_nodes s) (h_values s) (h_stale s)). exists s, s1, s2.
  split; [unfold breq_states; fold e; rewrite R, bind_Ok, R1, bind_Ok, P, bind_Ok; reflexivity|]. split; [exact U|].
  assert (Ps : partly_stored b s s2).
  { exists (tb_nodes b), ∅, ∅. split; [reflexivity|]. split; [apply map_empty_subseteq|]. split; [apply empty_subseteq|]. unfold s2. f_equal; [symmetry; apply (left_id_L ∅ (∪))|symmetry; apply (left_id_L ∅ (∪))]. }
  split; intros PP A p; apply alternate_may.
  - assert (P1 : PP s1) by (apply (bp_between toy ark_reader archive_write (archive_prune 0) id 5 2 s 4 [Purge 4] s1 zs R1); vm_compute; discriminate).
    assert (P2 : PP s2) by (eapply (bp_commit toy ark_reader archive_write (archive_prune 0) id 5 2 s 4 [] s [] [[(K80, None)]] roots b s2); [reflexivity|cbn; lia|exact P|exact Ps]).
    intros nk. split; [exists s1|exists s2]; (split; [assumption|reflexivity]).
  - assert (P1 : PP s1) by (apply (bp_between toy ark_reader archive_write (archive_prune 0) id 5 2 s 4 [Purge 4] s1 zs R1); vm_compute; discriminate).
    assert (P2 : PP s2) by (eapply (bp_commit toy ark_reader archive_write (archive_prune 0) id 5 2 s 4 [] s [] [[(K80, None)]] roots b s2); [reflexivity|cbn; lia|exact P|exact Ps]).
    intros w k. split; [exists s1|exists s2]; (split; [assumption|reflexivity]).
  - assert (P1 : PP s) by (apply (bq_between toy ark_reader archive_write (archive_prune 0) id 5 s [] s []); [constructor|reflexivity]).
    assert (P2 : PP s1) by (apply (bq_between toy ark_reader archive_write (archive_prune 0) id 5 s [Purge 4] s1 zs); [constructor; [reflexivity|constructor]|exact R1]).
    intros nk. split; [exists s|exists s1]; (split; [assumption|reflexivity]).
  - assert (P1 : PP s) by (apply (bq_between toy ark_reader archive_write (archive_prune 0) id 5 s [] s []); [constructor|reflexivity]).
    assert (P2 : PP s1) by (apply (bq_between toy ark_reader archive_write (archive_prune 0) id 5 s [Purge 4] s1 zs); [constructor; [reflexivity|constructor]|exact R1]).
    intros w k. split; [exists s|exists s1]; (split; [assumption|reflexivity]).
Qed.
