(** C89: any store that keeps the contract of TreeReader and TreeWriter serves as well as the mock store: a backend of the user's own, which may also
    put off the deletion of stale nodes for as long as it likes. *)
From Coq Require Import Strings.String.
From Verif Require CommitMono ThmVersions.
From Verif Require Import Base Spec SpecOrder NodeType ProofDef TreeCache Tree BatchTree Mock Driver Iterator Exclusion KeyFacts SmtFacts ProofFacts NodeFacts Canon CanonSib ReadFacts PutFacts InsertFacts PutTop VersionFacts ValueFacts StoreFacts DriverFacts DriverFacts2 LeafVersion KeyOrder OrderFacts IterFacts ExclFacts ThmProof ThmStore ThmStore2 ThmRange ThmIter ThmExcl Demo Toy ThmCrash ThmPurged ThmDamaged ThmOrigin.
From Coq Require Import Lia.
Local Opaque Spec.smt root_inputs ms_in.

(** *** Specification: the contract *)
(** What a store holds: nodes, values with the version they were written at, and stale node indices. *)
Record holding : Type := Held { h_nodes : gmap nodekey node; h_values : gmap (version * key) (option value); h_stale : gset (version * nodekey) }.
(** reader.rs:28-37 get_value_option: the value of the greatest version not above [v]; a deletion is a value too *)
Definition latest (vals : gmap (version * key) (option value)) (v : version) (k : key) (x : value) : Prop :=
  exists w, (w <= v)%N /\ vals !! (w, k) = Some (Some x) /\ forall w', (w < w')%N -> (w' <= v)%N -> vals !! (w', k) = None.
Section backend.
Context (H : list byte -> bytes32) {T : Type}.
(** [T]: the states of the store; [rd]: its TreeReader; [write]: write a TreeUpdateBatch; [prune]: delete nodes that are stale since a version not above the one given *)
Context (rd : T -> reader) (write : T -> tree_batch -> outcome T) (prune : T -> version -> outcome T) (held : T -> holding).
Record conforms : Prop := {
  cf_node s nk : rd_node (rd s) nk = h_nodes (held s) !! nk;
  cf_value s v k x : rd_value (rd s) v k = Some x <-> latest (h_values (held s)) v k x;
  (** a write that succeeds adds what is in the batch *)
  cf_write s b s' : write s b = Ok s' ->
    held s' = Held (tb_nodes b ∪ h_nodes (held s)) (tb_values b ∪ h_values (held s)) (tb_stale b ∪ h_stale (held s));
  (** pruning removes some, all or none of the nodes that are stale since [l] or earlier, and nothing else *)
  cf_prune s l s' : prune s l = Ok s' -> exists D, D ⊆ h_stale (held s) /\ (forall log, log ∈ D -> (log.1 <= l)%N) /\ h_stale (held s') = h_stale (held s) ∖ D /\
    h_values (held s') = h_values (held s) /\
    (forall nk, (forall w, (w, nk) ∉ D) -> h_nodes (held s') !! nk = h_nodes (held s) !! nk) /\ (forall w nk, (w, nk) ∈ D -> h_nodes (held s') !! nk = None) }.
(** it may refuse a batch only if a node or an index of it exists already, or a value of the same or a later version *)
Definition accepts : Prop := (forall s l, exists s', prune s l = Ok s') /\
  forall s b, (forall nk, is_Some (tb_nodes b !! nk) -> h_nodes (held s) !! nk = None) -> (forall log, log ∈ tb_stale b -> log ∉ h_stale (held s)) ->
    (forall w w' k, is_Some (tb_values b !! (w, k)) -> is_Some (h_values (held s) !! (w', k)) -> (w' < w)%N) -> exists s', write s b = Ok s'.
(** the client of Driver.v on such a store *)
Definition bstep (s : T) (n : version) (o : op) : outcome (T * out) :=
  match o with
  | Commit sets => '(roots, b) ← put_value_sets H (rd s) sets n; s' ← write s b; Ok (s', OutCommit roots b)
  | CommitP sets => '(roots, b) ← put_value_sets_with_proof H (rd s) sets n; s' ← write s b; Ok (s', OutCommitP roots b)
  | Purge l => s' ← prune s l; Ok (s', OutPurge)
  end.
Fixpoint brun_from (s : T) (n : version) (ops : list op) : outcome (T * list out) :=
  match ops with
  | [] => Ok (s, [])
  | o :: ops' => '(s', x) ← bstep s n o; '(s'', xs) ← brun_from s' (n + N.of_nat (length (op_sets o))) ops'; Ok (s'', x :: xs)
  end.

(** *** Proof *)
Context (C : conforms).
Definition covers (ops : list op) (st : store) (s : T) : Prop := let n := num_versions ops in
  (forall nk nd, st_nodes st !! nk = Some nd -> h_nodes (held s) !! nk = Some nd) /\
  (forall nk nd, h_nodes (held s) !! nk = Some nd -> (nk.1 < n)%N) /\
  (forall log, log ∈ h_stale (held s) -> (log.2.1 < n)%N /\ (log.1 < n)%N /\ (log ∈ st_stale st \/ st_nodes st !! log.2 = None)) /\
  (forall w k x, h_values (held s) !! (w, k) = Some x <-> (w, x) ∈ hl 0 (history ops) k).
Lemma latest_find l v x : StronglySorted vlt l -> find_value v (rev l) = Some x <-> exists w, (w <= v)%N /\ (w, Some x) ∈ l /\ forall w', (w < w')%N -> (w' <= v)%N -> forall y, (w', y) ∉ l.
Proof.
  induction l as [|[w y] l IH] using rev_ind; intros So; [split; [done|]; intros (w & _ & E & _); by apply elem_of_nil in E|].
  assert (Lt : forall w' y', (w', y') ∈ l -> (w' < w)%N).
  { intros w' y' E. exact (StronglySorted_app_mid vlt _ _ _ _ So E). }
  assert (Sl : StronglySorted vlt l) by (by apply StronglySorted_app_inv_l in So). specialize (IH Sl).
  rewrite rev_app_distr. cbn [rev app find_value]. destruct (N.leb_spec w v) as [L|L].
  - split.
    + intros ->. exists w. split; [done|]. split; [apply elem_of_app; right; by left|]. intros w' L1 L2 z Z. apply elem_of_app in Z as [Z|Z]; [apply Lt in Z; lia|]. apply elem_of_list_singleton in Z. injection Z as -> _. lia.
    + intros (w0 & L0 & E & N). apply elem_of_app in E as [E|E]; [|apply elem_of_list_singleton in E; by injection E]. exfalso. apply (N w (Lt _ _ E) L y). apply elem_of_app. right. by left.
  - rewrite IH. split; intros (w0 & L0 & E & N); exists w0; (split; [done|]).
    + split; [apply elem_of_app; by left|]. intros w' L1 L2 z Z. apply elem_of_app in Z as [Z|Z]; [by apply (N w' L1 L2 z)|]. apply elem_of_list_singleton in Z. injection Z as -> _. lia.
    + apply elem_of_app in E as [E|E]; [|apply elem_of_list_singleton in E; injection E as -> _; lia]. split; [done|]. intros w' L1 L2 z Z. apply (N w' L1 L2 z). apply elem_of_app. by left.
Qed.
Lemma covers_value ops st xs s v k : run H ops = Ok (st, xs) -> covers ops st s -> rd_value (rd s) v k = store_value st v k.
Proof.
  intros R (_ & _ & _ & Cv). apply run_inv in R as [_ S]. pose proof (si_hist _ _ _ _ _ _ S) as Hh. apply option_eq. intros x. rewrite (cf_value C). rewrite (store_value_hist _ _ _ _ Hh), <- find_value_hl, (latest_find _ _ _ (hl_sorted _ _ _)).
  unfold latest. split; intros (w & L & E & N); exists w; (split; [done|]); (split; [by apply Cv|]); intros w' L1 L2.
  - intros y Z. apply Cv in Z. by rewrite (N w' L1 L2) in Z.
  - destruct (h_values (held s) !! (w', k)) as [y|] eqn:Z; [|done]. apply Cv in Z. by apply N in Z.
Qed.
Lemma covers_view ops st xs s v : run H ops = Ok (st, xs) -> covers ops st s -> readable ops v -> view H (rd s) v (contents_at (history ops) v).
Proof.
  intros R Cs Rv. pose proof (run_view H _ _ _ _ R Rv) as V. destruct Rv as [_ L]. eapply view_mono; [exact V|exact L| |].
  - intros nk nd E. rewrite (cf_node C). destruct Cs as (C1 & C2 & _). pose proof (C1 nk nd E) as E'. split; [exact E'|by eapply C2].
  - intros w k _. by eapply covers_value.
Qed.
Lemma covers_put ops st xs s sets : run H ops = Ok (st, xs) -> covers ops st s -> let n := num_versions ops in
  put_value_sets H (rd s) sets n = put_value_sets H (store_reader st) sets n /\ put_value_sets_with_proof H (rd s) sets n = put_value_sets_with_proof H (store_reader st) sets n.
Proof.
  intros R (C1 & C2 & _) n. set (r := store_reader st). set (r' := rd s).
  assert (Le : forall nk nd, rd_node r nk = Some nd -> rd_node r' nk = Some nd) by (intros nk nd E; unfold r'; rewrite (cf_node C); by apply C1).
  assert (Fr : forall w, (n <= w)%N -> rd_node r' (w, []) = None). { intros w L. unfold r'. rewrite (cf_node C). destruct (h_nodes (held s) !! (w, [])) as [nd|] eqn:E; [|done]. apply C2 in E. cbn in E. fold n in E. lia. }
  pose proof R as R0. apply run_inv in R0 as [_ S0]. destruct (commit_batch H _ _ _ _ _ sets S0) as (_ & b & pfss & P1 & P2 & _). fold (num_versions ops) in P1, P2. fold n r in P1, P2. rewrite P1, P2.
  assert (Ec : cache_new r' n = cache_new r n).
  { unfold cache_new. destruct (N.eqb_spec n 0) as [Z|Z]; [|done]. assert (E' : rd_node r' (nk_root PRE_GENESIS_VERSION) = None) by (apply Fr; rewrite Z; lia).
    destruct (rd_node r (nk_root PRE_GENESIS_VERSION)) as [nd|] eqn:E; [apply Le in E; congruence|]. by rewrite E'. }
  assert (Rh : CommitMono.rootish r n (tc_root (cache_new r n))).
  { unfold cache_new. destruct (N.eqb_spec n 0) as [Z|Z].
    - assert (E' : rd_node r' (nk_root PRE_GENESIS_VERSION) = None) by (apply Fr; rewrite Z; lia). destruct (rd_node r (nk_root PRE_GENESIS_VERSION)) as [nd|] eqn:E; [apply Le in E; congruence|]. exists 0%N. split; [done|]. left. lia.
    - exists (n - 1)%N. split; [done|]. right. assert (Rd : readable ops (n - 1)%N) by (apply latest_readable; fold n; lia). destruct (run_view H _ _ _ _ R Rd) as (ver & [Rt _] & _). unfold r. by rewrite Rt. }
  split.
  - unfold put_value_sets in *. rewrite Ec. apply bind_inv' in P1 as (c & P1 & Eb). by rewrite (CommitMono.put_sets_le H r r' n Le Fr sets n _ c (N.le_refl _) Rh P1), bind_Ok.
  - unfold put_value_sets_with_proof in *. rewrite Ec. apply bind_inv' in P2 as (c & P2 & Eb). destruct c as [ps c]. by rewrite (CommitMono.put_sets_wp_le H r r' n Le Fr sets n _ (ps, c) (N.le_refl _) Rh P2), bind_Ok.
Qed.
Lemma history_snoc ops o : history (ops ++ [o]) = history ops ++ op_sets o.
Proof. rewrite history_app. f_equal. unfold history. cbn [flat_map]. apply app_nil_r. Qed.
(** a commit to both *)
Lemma covers_write ops st xs s o sets roots b st' s' : run H ops = Ok (st, xs) -> covers ops st s -> op_sets o = sets -> (forall l, o <> Purge l) ->
  put_value_sets H (store_reader st) sets (num_versions ops) = Ok (roots, b) -> write_tree_update_batch st b = Ok st' -> write s b = Ok s' -> covers (ops ++ [o]) st' s'.
Proof.
  intros R (C1 & C2 & C3 & C4) Eo No P W W'. pose proof (ThmVersions.C74_versions_in_batch H ops st xs sets roots b R P) as (B1 & B2 & B3). cbn zeta in B1, B2, B3.
  pose proof (ThmVersions.C74_versions_in_store H ops st xs R) as (S1 & S2 & _). set (n := num_versions ops) in *.
  assert (En : num_versions (ops ++ [o]) = (n + N.of_nat (length sets))%N). { unfold n, num_versions. rewrite history_snoc, app_length, Eo. lia. }
  assert (Wn : st_nodes st' = tb_nodes b ∪ st_nodes st /\ st_stale st' = tb_stale b ∪ st_stale st).
  { unfold write_tree_update_batch, write_node_batch in W. apply bind_inv' in W as (s1 & W1 & W). apply bind_inv' in W1 as (u & _ & W1). apply bind_inv' in W1 as (h & _ & W1). injection W1 as <-. apply bind_inv' in W as (u' & _ & W). injection W as <-. done. }
  destruct Wn as [Wn Ws]. apply (cf_write C) in W'. unfold covers. rewrite W', En. cbn [h_nodes h_values h_stale]. split; [|split; [|split]].
  - intros nk nd E. rewrite Wn in E. apply lookup_union_Some_raw in E as [E|[E1 E2]]; apply lookup_union_Some_raw; [by left|right]. split; [done|by apply C1].
  - intros nk nd E. apply lookup_union_Some_raw in E as [E|[_ E]]; [apply B1 in E as [? _]; lia|]. apply C2 in E. lia.
  - intros [w nk] E. rewrite Wn, Ws. cbn [fst snd]. apply elem_of_union in E as [E|E]; [pose proof (B2 _ _ E); split; [lia|]; split; [lia|]; left; apply elem_of_union; by left|].
    destruct (C3 _ E) as (L1 & L2 & D). cbn [fst snd] in L1, L2, D. split; [lia|]. split; [lia|]. destruct D as [D|D]; [left; apply elem_of_union; by right|right].
    apply lookup_union_None. split; [|exact D]. destruct (tb_nodes b !! nk) as [nd|] eqn:E'; [|done]. apply B1 in E' as [? _]. lia.
  - intros w k x. pose proof R as R0. apply run_inv in R0 as [_ S0]. destruct (commit_batch H _ _ _ _ _ sets S0) as (_ & b' & pfss & P1 & _ & P3 & _). fold (num_versions ops) in P1. fold n in P1. rewrite P in P1. injection P1 as _ <-.
    pose proof (bo_values _ _ _ _ _ P3) as Ev. fold (num_versions ops) in Ev. fold n in Ev. rewrite history_snoc, hl_app, Eo, elem_of_app, <- C4.
    assert (Eb : tb_values b !! (w, k) = Some x <-> (w, x) ∈ hl (0 + N.of_nat (length (history ops))) sets k).
    { rewrite Ev. rewrite bvals_lookup by (intros; apply lookup_empty). rewrite lookup_empty. unfold n, num_versions. rewrite N.add_0_l. naive_solver. }
    rewrite <- Eb, lookup_union_Some_raw. split; [intros [E|[_ E]]; auto|]. intros [E|E]; [|by left]. right. split; [|exact E].
    destruct (tb_values b !! (w, k)) as [y|] eqn:Z; [|done]. apply B3 in Z. apply C4, hl_lt in E. unfold n, num_versions in Z. lia.
Qed.
Lemma purge_loop_stale l : forall s s', purge_loop s l = Ok s' -> st_stale s' = st_stale s ∖ list_to_set l.
Proof.
  induction l as [|log l IH]; intros s s' E; cbn [purge_loop] in E; [injection E as <-; set_solver|]. apply bind_inv' in E as (u & _ & E). apply IH in E. rewrite E. cbn [st_stale list_to_set]. set_solver.
Qed.
Lemma covers_prune ops st xs s l st' s' : run H ops = Ok (st, xs) -> covers ops st s -> purge_stale_nodes st l = Ok st' -> prune s l = Ok s' -> covers (ops ++ [Purge l]) st' s'.
Proof.
  intros R (C1 & C2 & C3 & C4) P P'. apply (cf_prune C) in P' as (D & Ds & Dl & Es & Ev & Ek & Ed). pose proof P as Pn. apply purge_loop_nodes in Pn as [_ Pn]. apply purge_loop_stale in P.
  assert (Eh : history (ops ++ [Purge l]) = history ops) by (rewrite history_app; apply app_nil_r). unfold covers, num_versions. rewrite Eh, Es, Ev. fold (num_versions ops).
  assert (G : forall nk nd, st_nodes st' !! nk = Some nd -> forall w, (w, nk) ∉ D).
  { intros nk nd E w Hw. apply Pn in E as [E Q]. destruct (C3 _ (Ds _ Hw)) as (_ & _ & [Hs|Hs]); [|cbn in Hs; congruence]. apply (Q (w, nk)); [|done]. apply elem_of_elements, elem_of_filter. split; [by apply Dl|done]. }
  split; [|split; [|split]].
  - intros nk nd E. rewrite Ek; [apply C1; by apply Pn in E as [? _]|by eapply G].
  - intros nk nd E. destruct (decide (exists log, log ∈ D /\ log.2 = nk)) as [([w nk'] & Hd & <-)|Nd].
    + cbn [snd] in E. rewrite (Ed _ _ Hd) in E. done.
    + rewrite Ek in E; [by eapply C2|]. intros w Hw. apply Nd. by exists (w, nk).
  - intros log Hl. apply elem_of_difference in Hl as [Hl _]. destruct (C3 _ Hl) as (L1 & L2 & [Hs|Hs]); (split; [done|]; split; [done|]).
    + rewrite P. destruct (decide (log.1 <= l)%N) as [L|L].
      * right. destruct (st_nodes st' !! log.2) as [nd|] eqn:E; [|done]. apply Pn in E as [_ Q]. exfalso. apply (Q log); [|done]. apply elem_of_elements, elem_of_filter. done.
      * left. apply elem_of_difference. split; [done|]. intros Z. apply elem_of_list_to_set, elem_of_elements, elem_of_filter in Z as [Z _]. done.
    + right. destruct (st_nodes st' !! log.2) as [nd|] eqn:E; [|done]. apply Pn in E as [E _]. congruence.
  - exact C4.
Qed.
Lemma covers_step ops st xs s o s' x : run H ops = Ok (st, xs) -> covers ops st s -> bstep s (num_versions ops) o = Ok (s', x) ->
  exists st', step H st (num_versions ops) o = Ok (st', x) /\ covers (ops ++ [o]) st' s'.
Proof.
  intros R Cs E. pose proof R as R0. apply run_inv in R0 as [_ S0]. destruct (step_ok H st _ _ _ o S0) as (st' & x' & E' & _). fold (num_versions ops) in E'.
  destruct o as [sets|sets|l]; cbn [bstep] in E; pose proof E' as E2; cbn [step] in E2.
  - destruct (covers_put ops st xs s sets R Cs) as [Ep _]. rewrite Ep in E. apply bind_inv' in E2 as ([roots b] & P & E2). rewrite P, bind_Ok in E. apply bind_inv' in E2 as (st1 & W & E2). injection E2 as <- <-.
    apply bind_inv' in E as (s1 & W' & E). injection E as <- <-. exists st1. split; [exact E'|]. by eapply covers_write.
  - destruct (covers_put ops st xs s sets R Cs) as [_ Ep]. rewrite Ep in E. apply bind_inv' in E2 as ([roots b] & P & E2). rewrite P, bind_Ok in E. apply bind_inv' in E2 as (st1 & W & E2). injection E2 as <- <-.
    apply bind_inv' in E as (s1 & W' & E). injection E as <- <-. exists st1. split; [exact E'|].
    destruct (commit_batch H _ _ _ _ _ sets S0) as (_ & b' & pfss & P1 & P2 & _). fold (num_versions ops) in P1, P2. rewrite P in P2. injection P2 as -> ->. by eapply covers_write.
  - apply bind_inv' in E2 as (st1 & P & E2). injection E2 as <- <-. apply bind_inv' in E as (s1 & P' & E). injection E as <- <-. exists st1. split; [exact E'|]. by eapply covers_prune.
Qed.
Lemma covers_run more : forall ops st xs s s' ys, run H ops = Ok (st, xs) -> covers ops st s -> brun_from s (num_versions ops) more = Ok (s', ys) ->
  exists st', run_from H st (num_versions ops) more = Ok (st', ys) /\ run H (ops ++ more) = Ok (st', xs ++ ys) /\ covers (ops ++ more) st' s'.
Proof.
  induction more as [|o more IH]; intros ops st xs s s' ys R Cs E; cbn [brun_from run_from] in *.
  - injection E as <- <-. exists st. rewrite !app_nil_r. done.
  - apply bind_inv' in E as ([s1 x] & E1 & E). apply bind_inv' in E as ([s2 ys2] & E2 & E). injection E as <- <-.
    destruct (covers_step ops st xs s o s1 x R Cs E1) as (st1 & St & Cs1). pose proof (run_snoc H _ _ _ _ _ _ R St) as R1.
    assert (En : (num_versions ops + N.of_nat (length (op_sets o)))%N = num_versions (ops ++ [o])). { unfold num_versions. rewrite history_snoc, app_length. lia. }
    rewrite En in *. destruct (IH _ _ _ _ _ _ R1 Cs1 E2) as (st' & Q1 & Q2 & Q3). exists st'. rewrite St, bind_Ok, Q1, bind_Ok. rewrite <- !app_assoc in Q2, Q3. cbn [app] in Q2, Q3. split; [reflexivity|]. split; [rewrite <- app_assoc in Q2; exact Q2|exact Q3].
Qed.

(** *** C89 *)
Context (s0 : T) (E0 : held s0 = Held ∅ ∅ ∅).
Lemma covers_empty : covers [] store_empty s0.
Proof using E0.
  unfold covers. rewrite E0. cbn. split; [intros nk nd; by rewrite lookup_empty|]. split; [intros nk nd; by rewrite lookup_empty|]. split; [intros log Z; by apply elem_of_empty in Z|].
  intros w k x. rewrite lookup_empty. split; [done|]. intros Z. by apply elem_of_nil in Z.
Qed.
(** Every history that succeeds on such a store gives the same roots, proofs and update batches as on the mock store, and every readable version then answers every query with the contents
    of the history; [get] does so for every version. *)
Theorem C89_backend ops s ys : brun_from s0 0 ops = Ok (s, ys) -> exists st, run H ops = Ok (st, ys) /\
  (forall v k, get (rd s) k v = Ok (contents_at (history ops) v !! k)) /\
  forall v, readable ops v -> reader_reads_as H (rd s) v (contents_at (history ops) v) /\ same_answers H (rd s) v (store_reader st) v.
Proof using C E0.
  intros E. destruct (covers_run ops [] store_empty [] s0 s ys eq_refl covers_empty E) as (st & _ & R & Cs). cbn [app] in R, Cs. exists st. split; [exact R|]. split.
  - intros v k. unfold get. rewrite (covers_value ops st ys s v k R Cs). by apply (C01_get H ops st ys k v R).
  - intros v Rv. pose proof (covers_view ops st ys s v R Cs Rv) as V. split; [by apply view_reader|]. eapply view_same; [exact V|by apply (run_view H ops st ys v R Rv)].
Qed.
(** ... and if it accepts what is new, every history succeeds. *)
Theorem C89_accepts ops : accepts -> exists s ys, brun_from s0 0 ops = Ok (s, ys).
Proof using C E0.
  intros [Ap Aw]. cut (forall more ops st xs s, run H ops = Ok (st, xs) -> covers ops st s -> exists s' ys, brun_from s (num_versions ops) more = Ok (s', ys)).
  { intros G. exact (G ops [] store_empty [] s0 eq_refl covers_empty). }
  clear ops. induction more as [|o more IH]; intros ops st xs s R Cs; [by eexists s, []|]. cbn [brun_from].
  assert (Es : exists s1 x, bstep s (num_versions ops) o = Ok (s1, x)).
  { pose proof R as R0. apply run_inv in R0 as [_ S0]. pose proof Cs as (C1 & C2 & C3 & C4).
    assert (G : forall sets roots b, put_value_sets H (store_reader st) sets (num_versions ops) = Ok (roots, b) -> exists s1, write s b = Ok s1).
    { intros sets roots b P. pose proof (ThmVersions.C74_versions_in_batch H ops st xs sets roots b R P) as (B1 & B2 & B3). cbn zeta in B1, B2, B3. apply Aw.
      - intros nk [nd E]. apply B1 in E as [L _]. destruct (h_nodes (held s) !! nk) as [nd'|] eqn:E'; [|done]. apply C2 in E'. lia.
      - intros [w nk] E Z. apply B2 in E as [_ L]. apply C3 in Z as (_ & L' & _). cbn [fst] in L'. lia.
      - intros w w' k [x E] [y E']. apply B3 in E. apply C4, hl_lt in E'. unfold num_versions in E. lia. }
    destruct o as [sets|sets|l]; cbn [bstep].
    - destruct (covers_put ops st xs s sets R Cs) as [Ep _]. rewrite Ep. destruct (commit_batch H _ _ _ _ _ sets S0) as (_ & b & pfss & P1 & _). fold (num_versions ops) in P1. rewrite P1, bind_Ok.
      destruct (G _ _ _ P1) as (s1 & W). rewrite W, bind_Ok. eauto.
    - destruct (covers_put ops st xs s sets R Cs) as [_ Ep]. rewrite Ep. destruct (commit_batch H _ _ _ _ _ sets S0) as (_ & b & pfss & P1 & P2 & _). fold (num_versions ops) in P1, P2. rewrite P2, bind_Ok.
      destruct (G _ _ _ P1) as (s1 & W). rewrite W, bind_Ok. eauto.
    - destruct (Ap s l) as (s1 & P). rewrite P, bind_Ok. eauto. }
  destruct Es as (s1 & x & E1). rewrite E1, bind_Ok. destruct (covers_step ops st xs s o s1 x R Cs E1) as (st1 & St & Cs1). pose proof (run_snoc H _ _ _ _ _ _ R St) as R1.
  assert (En : (num_versions ops + N.of_nat (length (op_sets o)))%N = num_versions (ops ++ [o])). { unfold num_versions. rewrite history_snoc, app_length. lia. }
  rewrite En. destruct (IH _ _ _ _ R1 Cs1) as (s' & ys & E2). rewrite E2, bind_Ok. eauto.
Qed.
End backend.

(** *** A backend: it looks a value up version by version, and deletes stale nodes only if they are stale since [lag] versions more than required (for a large [lag]: an archive). *)
Fixpoint look_down (vals : gmap (version * key) (option value)) (k : key) (w : nat) : option value :=
  match vals !! (N.of_nat w, k) with
  | Some x => x
  | None => match w with O => None | S w' => look_down vals k w' end
  end.
Definition archive_reader (s : holding) : reader := mkReader (fun nk => h_nodes s !! nk) (fun v k => look_down (h_values s) k (N.to_nat v)) None.
Definition archive_write (s : holding) (b : tree_batch) : outcome holding := Ok (Held (tb_nodes b ∪ h_nodes s) (tb_values b ∪ h_values s) (tb_stale b ∪ h_stale s)).
Definition archive_gone (lag l : version) (s : holding) : gset (version * nodekey) := filter (fun log => (log.1 + lag <= l)%N) (h_stale s).
Definition archive_prune (lag : version) (s : holding) (l : version) : outcome holding :=
  let D := archive_gone lag l s in Ok (Held (filter (fun e => e.1 ∉ (set_map snd D : gset nodekey)) (h_nodes s)) (h_values s) (h_stale s ∖ D)).
Lemma look_down_latest vals k w x : look_down vals k w = Some x <-> latest vals (N.of_nat w) k x.
Proof.
  induction w as [|w IH]; cbn [look_down].
  - destruct (vals !! (N.of_nat 0, k)) as [y|] eqn:E; (split; [|intros (w & L & E' & _); assert (w = 0%N) as -> by lia; change (N.of_nat 0) with 0%N in E; congruence]).
    + intros ->. exists 0%N. split; [lia|]. split; [exact E|]. lia.
    + done.
  - destruct (vals !! (N.of_nat (S w), k)) as [y|] eqn:E.
    + split.
      * intros ->. exists (N.of_nat (S w)). split; [lia|]. split; [exact E|]. lia.
      * intros (w0 & L & E' & N). destruct (decide (w0 = N.of_nat (S w))) as [->|Ne]; [congruence|]. rewrite (N (N.of_nat (S w))) in E by lia. done.
    + rewrite IH. split; intros (w0 & L & E' & N); exists w0.
      * split; [lia|]. split; [done|]. intros w' L1 L2. destruct (decide (w' = N.of_nat (S w))) as [->|Ne]; [done|]. apply N; lia.
      * destruct (decide (w0 = N.of_nat (S w))) as [->|Ne]; [congruence|]. split; [lia|]. split; [done|]. intros w' L1 L2. apply N; lia.
Qed.
Theorem archive_conforms lag : conforms archive_reader archive_write (archive_prune lag) id.
Proof.
  split.
  - done.
  - intros s v k x. cbn [archive_reader rd_value id]. rewrite look_down_latest, N2Nat.id. done.
  - intros s b s' [= <-]. done.
  - intros s l s' [= <-]. exists (archive_gone lag l s). cbn [id h_nodes h_values h_stale]. set (D := archive_gone lag l s). split; [unfold D, archive_gone; intros log Hl; by apply elem_of_filter in Hl as [_ ?]|].
    split; [intros log Hl; apply elem_of_filter in Hl as [Hl _]; lia|]. split; [done|]. split; [done|]. split.
    + intros nk Hn. apply option_eq. intros nd. rewrite map_filter_lookup_Some. split; [by intros [? _]|]. intros E. split; [done|]. cbn [fst]. intros Z. apply elem_of_map in Z as ([w nk'] & -> & Z). by apply Hn in Z.
    + intros w nk Hd. apply map_filter_lookup_None. right. intros nd _ Z. apply Z. cbn [fst]. apply elem_of_map. by exists (w, nk).
Qed.
Lemma archive_accepts lag : accepts archive_write (archive_prune lag) id.
Proof. split; intros; eexists; reflexivity. Qed.
(** the demo history on it: version 0, which the mock store has purged, is still there *)
Theorem demo_archive : exists s ys st, brun_from toy archive_reader archive_write (archive_prune 9) (Held ∅ ∅ ∅) 0 demo = Ok (s, ys) /\ run toy demo = Ok (st, ys) /\
  get_root_hash toy (archive_reader s) 4 = Ok (smt_root toy demo_map) /\ is_Some (h_nodes s !! (0, [])%N) /\ st_nodes st !! (0, [])%N = None.
Proof.
  destruct (C89_accepts toy archive_reader archive_write (archive_prune 9) id (archive_conforms 9) (Held ∅ ∅ ∅) eq_refl demo (archive_accepts 9)) as (s & ys & E).
  destruct (C89_backend toy archive_reader archive_write (archive_prune 9) id (archive_conforms 9) (Held ∅ ∅ ∅) eq_refl demo s ys E) as (st & R & _ & Q).
  exists s, ys, st. split; [exact E|]. split; [exact R|]. split.
  - destruct (Q 4%N (proj1 (proj2 (proj2 demo_readable)))) as [(_ & _ & Er & _) _]. assert (Ec : contents_at (history demo) 4 = demo_map) by (apply (bool_decide_eq_true_1 _); vm_compute; reflexivity). rewrite Ec in Er. exact Er.
  - split.
    + assert (X : match brun_from toy archive_reader archive_write (archive_prune 9) (Held ∅ ∅ ∅) 0 demo with Ok (s, _) => match h_nodes s !! (0, [])%N with Some _ => true | None => false end | _ => false end = true) by (vm_compute; reflexivity).
      rewrite E in X. destruct (h_nodes s !! (0, [])%N) as [nd|]; [by exists nd|discriminate X].
    + assert (X : match run toy demo with Ok (st, _) => match st_nodes st !! (0, [])%N with Some _ => false | None => true end | _ => false end = true) by (vm_compute; reflexivity).
      rewrite R in X. destruct (st_nodes st !! (0, [])%N) as [nd|]; [discriminate X|reflexivity].
Qed.
