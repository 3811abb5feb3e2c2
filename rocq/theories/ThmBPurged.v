(** C99: on any store that keeps the contract of TreeReader and TreeWriter (C89), a version that was pruned, or is being pruned, never answers wrongly (C64 for backends), not even after crashes. *)
From Coq Require Import Strings.String.
From Verif Require Import Base Spec SpecOrder SpecRange NodeType ProofDef TreeCache Tree BatchTree Mock Driver Iterator Exclusion KeyFacts SmtFacts ProofFacts NodeFacts Canon CanonSib ReadFacts PutFacts InsertFacts PutTop VersionFacts ValueFacts StoreFacts DriverFacts DriverFacts2 LeafVersion KeyOrder OrderFacts IterFacts ExclFacts ThmProof ThmStore ThmStore2 ThmRange ThmIter ThmExcl Demo Toy ThmCrash ThmConc ThmPurged ThmOrigin ThmBackend ThmBRestore ThmBOrigin ThmBConc Requests RequestFacts RequestSafe ThmRequests ThmBReq.
From Coq Require Import Lia.
Local Opaque Spec.smt root_inputs ms_in.

Section bpurged.
Context (H : list byte -> bytes32) {T : Type}.
Context (rd : T -> reader) (write : T -> tree_batch -> outcome T) (prune : T -> version -> outcome T) (held : T -> holding).
(** *** Specification *)
(** [b_lived ops s]: the store, at first empty, has gone through the operations [ops]; in between it may have changed in ways that do not show (caches, compaction), and have crashed: in the
    middle of pruning, or in the middle of a commit, when the same batch is then written again. *)
Inductive b_lived : list op -> T -> Prop :=
| bl_empty s : held s = Held ∅ ∅ ∅ -> b_lived [] s
| bl_step ops s o s' x : b_lived ops s -> bstep H rd write prune s (num_versions ops) o = Ok (s', x) -> b_lived (ops ++ [o]) s'
| bl_same ops s s' : b_lived ops s -> held s' = held s -> b_lived ops s'
| bl_half_pruned ops s l s' : b_lived ops s -> partly_dropped l (held s) (held s') -> b_lived (ops ++ [Purge l]) s'
| bl_redone ops s sets roots b s1 s' : b_lived ops s -> put_value_sets H (rd s) sets (num_versions ops) = Ok (roots, b) -> partly_stored b (held s) (held s1) -> write s1 b = Ok s' ->
    b_lived (ops ++ [Commit sets]) s'.
(** The states it passes through after [ops], whatever is done next: those, the ones in the middle of pruning (bl_half_pruned), the ones in the middle of writing the batch of a commit. *)
Inductive bp_any (ops : list op) : T -> Prop :=
| bp_lived more s : b_lived (ops ++ more) s -> bp_any ops s
| bp_writing more s sets roots b s' : b_lived (ops ++ more) s -> put_value_sets H (rd s) sets (num_versions (ops ++ more)) = Ok (roots, b) -> partly_stored b (held s) (held s') -> bp_any ops s'.
(** a reader that answers each request for a node or a value from one of those states *)
Definition b_reads_any (ops : list op) (r : reader) : Prop :=
  (forall nk, exists s, bp_any ops s /\ rd_node r nk = rd_node (rd s) nk) /\
  (forall w k, exists s, bp_any ops s /\ rd_value r w k = rd_value (rd s) w k).

(** *** Proof *)
Context (C : conforms rd write prune held).
Notation kept := (kept held).
(** every node in the store is a node of the tree of some version committed: one that it was committed with *)
Definition sound (ops : list op) (nodes : gmap nodekey node) : Prop := forall nk nd, nodes !! nk = Some nd -> exists x, x ∈ (xrun H tb0 ops).1 /\ nodes_of H x nk nd.
Lemma sound_more ops more nodes : sound ops nodes -> sound (ops ++ more) nodes.
Proof using. intros S nk nd E. destruct (S nk nd E) as (x & Hx & N). exists x. split; [|exact N]. rewrite xrun_app. destruct (xrun_prefix H more (xrun H tb0 ops)) as [l ->]. apply elem_of_app. by left. Qed.
Lemma sound_le ops nodes nodes' : (forall nk nd, nodes' !! nk = Some nd -> nodes !! nk = Some nd) -> sound ops nodes -> sound ops nodes'.
Proof using. clear. intros L S nk nd E. apply S. by apply L. Qed.
Lemma run_in_use ops st xs : run H ops = Ok (st, xs) -> exists f c, in_use H (num_versions ops) f c st.
Proof using. intros R. do 2 eexists. rewrite <- (N.add_0_l (num_versions ops)). eapply in_use_more; [apply in_use_empty|exact R]. Qed.
Lemma batch_sound ops st xs sets roots b : run H ops = Ok (st, xs) -> put_value_sets H (store_reader st) sets (num_versions ops) = Ok (roots, b) -> sound (ops ++ [Commit sets]) (tb_nodes b).
Proof using.
  intros R P nk nd E. apply run_inv in R as [_ S]. destruct (commit_batch H _ _ _ _ _ sets S) as (_ & b' & pfss & P1 & _ & BO & _). fold (num_versions ops) in P1. rewrite P in P1. injection P1 as _ <-.
  apply (bo_nodes _ _ _ _ _ BO) in E as (x & Hx & N). exists x. split; [|exact N]. rewrite xrun_app. cbn [xrun fold_left]. unfold xrun. cbn [fold_left]. unfold xop. cbn [op_sets fst]. apply elem_of_app. by right.
Qed.
(** what a write leaves in the store, in full or in part *)
Lemma stored_sound ops st xs s s' sets roots b nodes : run H ops = Ok (st, xs) -> kept (num_versions ops) st s -> sound ops (h_nodes (held s)) ->
  put_value_sets H (rd s) sets (num_versions ops) = Ok (roots, b) -> nodes ⊆ tb_nodes b -> h_nodes (held s') = nodes ∪ h_nodes (held s) -> sound (ops ++ [Commit sets]) (h_nodes (held s')).
Proof using C.
  intros R K So P L Eh. destruct (run_in_use _ _ _ R) as (f & c & U). destruct (kept_put H rd write prune held C _ _ _ _ _ sets U K) as [Ep _]. rewrite Ep in P.
  intros nk nd E. rewrite Eh in E. apply lookup_union_Some_raw in E as [E|[_ E]].
  - by apply (batch_sound ops st xs sets roots b R P nk nd), (lookup_weaken _ _ _ _ E).
  - by apply (sound_more ops [Commit sets] _ So).
Qed.
Lemma sound_xrun ops ops' nodes : (xrun H tb0 ops).1 = (xrun H tb0 ops').1 -> sound ops nodes -> sound ops' nodes.
Proof using. clear. intros E S nk nd En. rewrite <- E. by apply S. Qed.
Lemma lived_inv ops s : b_lived ops s -> exists st xs, run H ops = Ok (st, xs) /\ kept (num_versions ops) st s /\ sound ops (h_nodes (held s)).
Proof using C.
  induction 1 as [s E0|ops s o s' x _ (st & xs & R & K & So) E|ops s s' _ (st & xs & R & K & So) E|ops s l s' _ (st & xs & R & K & So) P|ops s sets roots b s1 s' _ (st & xs & R & K & So) P Ps W].
  - exists store_empty, []. split; [done|]. split.
    + apply (kept_same H held 0 0 _ store_empty s (in_use_empty H)); rewrite E0; [done|intros log Z; by apply elem_of_empty in Z|apply vrel_empty].
    + rewrite E0. intros nk nd E. discriminate E.
  - destruct (run_in_use _ _ _ R) as (f & c & U). destruct (kept_step H rd write prune held C _ _ _ _ _ _ _ _ U K E) as (st' & St & K'). exists st', (xs ++ [x]). split; [by eapply run_snoc|].
    rewrite num_versions_app. replace (num_versions [o]) with (N.of_nat (length (op_sets o))) by (unfold num_versions, history; cbn [flat_map]; by rewrite app_nil_r). split; [exact K'|].
    assert (G : forall sets roots b s1, put_value_sets H (rd s) sets (num_versions ops) = Ok (roots, b) -> write s b = Ok s1 -> sound (ops ++ [Commit sets]) (h_nodes (held s1))).
    { intros sets roots b s1 P W. eapply (stored_sound ops st xs s s1 sets roots b (tb_nodes b)); [done..|]. by rewrite (cf_write _ _ _ _ C _ _ _ W). }
    destruct o as [sets|sets|l]; cbn [bstep] in E.
    + apply bind_inv' in E as ([roots b] & P & E). apply bind_inv' in E as (s1 & W & E). injection E as <- _. by eapply G.
    + apply bind_inv' in E as ([roots b] & P & E). apply bind_inv' in E as (s1 & W & E). injection E as <- _.
      destruct (kept_put H rd write prune held C _ _ _ _ _ sets U K) as (Ep & Ew & _). rewrite Ew in P. destruct (C82_commit H _ _ _ _ sets true U) as (roots' & pfss & b' & P1 & P2 & _). rewrite P in P2. injection P2 as -> ->. rewrite <- Ep in P1.
      eapply sound_xrun; [|by eapply G]. by rewrite !xrun_app.
    + apply bind_inv' in E as (s1 & P & E). injection E as <- _. apply sound_more. eapply sound_le; [|exact So]. apply (cf_prune _ _ _ _ C) in P as (D & _ & _ & _ & _ & Ek & Ed). intros nk nd En.
      destruct (decide (exists log, log ∈ D /\ log.2 = nk)) as [([w nk'] & Hd & <-)|Nd].
      * cbn [snd] in En. rewrite (Ed _ _ Hd) in En. discriminate En.
      * rewrite Ek in En; [done|]. intros w Hw. apply Nd. by exists (w, nk).
  - exists st, xs. split; [done|]. unfold ThmBOrigin.kept. rewrite E. done.
  - destruct (run_in_use _ _ _ R) as (f & c & U). destruct (in_use_step H _ _ _ _ (Purge l) U) as (st' & x & _ & _ & E & _). exists st', (xs ++ [x]). split; [by eapply run_snoc|].
    cbn [step] in E. apply bind_inv' in E as (st1 & Pg & E). injection E as <- <-. rewrite num_versions_app. change (num_versions [Purge l]) with 0%N. rewrite N.add_0_r. split; [by eapply (kept_half rd write prune held C)|].
    apply sound_more. eapply sound_le; [|exact So]. destruct P as (_ & _ & Ek). intros nk nd En. destruct (Ek nk) as [<-|[En' _]]; [done|congruence].
  - destruct (run_in_use _ _ _ R) as (f & c & U). destruct (kept_put H rd write prune held C _ _ _ _ _ sets U K) as (Ep & _). pose proof P as P0. rewrite Ep in P.
    destruct (in_use_step H _ _ _ _ (Commit sets) U) as (st' & x & _ & _ & E & _). exists st', (xs ++ [x]). split; [by eapply run_snoc|].
    cbn [step] in E. rewrite P, bind_Ok in E. apply bind_inv' in E as (st1 & W1 & E). injection E as <- <-. apply (cf_write _ _ _ _ C) in W. rewrite (stored_again _ _ _ Ps) in W.
    rewrite num_versions_app. replace (num_versions [Commit sets]) with (N.of_nat (length sets)) by (unfold num_versions, history; cbn [flat_map op_sets]; by rewrite app_nil_r). split.
    + destruct (batch_versions H _ _ _ _ _ _ _ U P) as (B1 & B2 & B3). by eapply kept_write.
    + eapply (stored_sound ops st xs s s' sets roots b (tb_nodes b)); [done..|]. by rewrite W.
Qed.
(** any state, lived or in the middle of a commit *)
Lemma bp_inv ops s : bp_any ops s -> exists more st xs, run H (ops ++ more) = Ok (st, xs) /\ (exists more', sound (ops ++ more') (h_nodes (held s)) /\ exists st' xs', run H (ops ++ more') = Ok (st', xs')) /\
  forall w k, (w < num_versions (ops ++ more))%N -> rd_value (rd s) w k = store_value st w k.
Proof using C.
  intros [more s' L|more s1 sets roots b s' L P Ps]; apply lived_inv in L as (st & xs & R & K & So); exists more, st, xs; (split; [done|]).
  - split; [exists more; eauto|]. intros w k _. by apply (kept_value rd write prune held C (num_versions (ops ++ more))).
  - destruct (run_in_use _ _ _ R) as (f & c & U). pose proof (stored_keeps H rd write prune held C _ _ _ _ _ _ _ _ _ U K P Ps) as (_ & I2 & _). destruct Ps as (nodes & vals & stale & Ln & Lv & Ls & Eh). split.
    + exists (more ++ [Commit sets]). rewrite app_assoc. split; [eapply (stored_sound _ st xs s1 s' sets roots b nodes); [done..|by rewrite Eh]|].
      destruct (in_use_step H _ _ _ _ (Commit sets) U) as (st' & x & _ & _ & E & _). exists st', (xs ++ [x]). by eapply run_snoc.
    + intros w k Lw. rewrite I2 by done. by apply (kept_value rd write prune held C (num_versions (ops ++ more))).
Qed.
Lemma bp_pview ops st xs v : run H ops = Ok (st, xs) -> (v < num_versions ops)%N -> exists x, (xrun H tb0 ops).1 !! N.to_nat v = Some x /\
  forall s, bp_any ops s -> pview H (a_ver (vs_a x)) (rd s) v (contents_at (history ops) v).
Proof using C.
  intros R Lv. destruct (run_pview H ops st xs v R Lv) as (x & Ex & _). exists x. split; [done|].
  assert (G : forall more st' xs', run H (ops ++ more) = Ok (st', xs') -> (v < num_versions (ops ++ more))%N /\ (xrun H tb0 (ops ++ more)).1 !! N.to_nat v = Some x /\
    (forall nk, needs (a_ver (vs_a x)) (H <$> contents_at (history ops) v) v nk -> (nk.1 < num_versions (ops ++ more))%N) /\
    pview H (a_ver (vs_a x)) (store_reader st') v (contents_at (history ops) v)).
  { intros more st' xs' R'. assert (Lv' : (v < num_versions (ops ++ more))%N) by (rewrite num_versions_app; lia). split; [done|].
    destruct (run_pview H _ _ _ _ R' Lv') as (x' & Ex' & B & V). rewrite history_more in B, V by done. pose proof Ex' as Ex2. rewrite xrun_app in Ex'. destruct (xrun_prefix H more (xrun H tb0 ops)) as [l El]. rewrite El in Ex'.
    rewrite lookup_app_l in Ex' by (by eapply lookup_lt_Some). rewrite Ex in Ex'. injection Ex' as <-. done. }
  intros s Ps. destruct (bp_inv ops s Ps) as (more & st1 & xs1 & R1 & (more' & So & st2 & xs2 & R2) & Vl). destruct (G _ _ _ R1) as (Lv1 & _ & B & V1 & V2 & V3). destruct (G _ _ _ R2) as (_ & Ex2 & _ & _).
  set (m := contents_at (history ops) v) in *. split; [|split].
  - intros nk nd N E. rewrite (cf_node _ _ _ _ C) in E. apply So in E as (y & Iy & Y1 & Y2 & _). apply run_inv in R2 as [_ S]. pose proof (si_trok _ _ _ _ _ _ S) as Tk. pose proof Tk as (T1 & _ & _ & _ & T5 & _).
    assert (Ix : x ∈ (xrun H tb0 (ops ++ more')).1) by (by eapply elem_of_list_lookup_2).
    assert (Mx : a_map (vs_a x) = H <$> m) by (rewrite (si_map _ _ _ _ _ _ S _ _ Ex2), N2Nat.id; unfold m; by rewrite history_more).
    assert (Vx : vs_v x = v) by (rewrite (T1 _ _ Ex2); lia).
    rewrite <- Mx, <- Vx in N. apply needs_in, (T5 _ _ Ix) in N as (z & Iz & Nz). unfold node_val in Nz. rewrite Mx in Nz. destruct Nz as (Z1 & Z2 & _). assert (y = z) as -> by (eapply (tr_inj H); [exact Tk|done|done|congruence]). congruence.
  - intros p n k z Mn EU. rewrite Vl; [by apply (V2 p n k z)|]. apply (B (a_ver (vs_a x) (p ++ [n]), p ++ [n])). right. cbn [fst snd]. rewrite parent_snoc, U_fm_size.
    split_and!; [by destruct p|done|done|]. rewrite U_fm, EU, map_fmap_singleton. apply insert_non_empty.
  - intros k. rewrite Vl by done. apply V3.
Qed.
Lemma b_any_pview ops st xs v : run H ops = Ok (st, xs) -> (v < num_versions ops)%N -> exists ver, forall r, b_reads_any ops r -> pview H ver r v (contents_at (history ops) v).
Proof using C.
  intros R Lv. destruct (bp_pview ops st xs v R Lv) as (x0 & _ & V). set (ver := a_ver (vs_a x0)) in *. exists ver. intros r [Cn Cv]. split; [|split].
  - intros nk nd N E. destruct (Cn nk) as (s & Ps & Es). rewrite Es in E. destruct (V s Ps) as (K & _). by apply (K nk nd N).
  - intros p n k x Mn E. destruct (Cv (ver (p ++ [n])) k) as (s & Ps & ->). destruct (V s Ps) as (_ & K & _). by eapply K.
  - intros k. destruct (Cv v k) as (s & Ps & ->). destruct (V s Ps) as (_ & _ & K). apply K.
Qed.
Lemma bp_values ops s w k : bp_any ops s -> (w < num_versions ops)%N -> rd_value (rd s) w k = contents_at (history ops) w !! k.
Proof using C.
  intros P L. apply bp_inv in P as (more & st & xs & R & _ & Vl). rewrite Vl by (rewrite num_versions_app; lia). apply run_inv in R as [_ S]. pose proof (value_ok H _ _ _ _ _ w k S) as E. cbn in E. rewrite E. by rewrite history_more.
Qed.
(** every request answered on its own, possibly by an error: one reader of the whole version stands for all answers *)
Lemma bp_settle ops v : (v < num_versions ops)%N -> let m := contents_at (history ops) v in
  let an := b_node_or_fail rd (bp_any ops) in let av := b_value_or_fail rd (bp_any ops) in
  exists ver r0, vview H ver r0 v m /\ (forall nk r, an nk r -> rd_node r0 nk <> None -> r = Ok (rd_node r0 nk) \/ (True /\ (failed r \/ r = Ok None))) /\ fair_v True r0 av /\
    (forall k r, av v k r -> r = Ok (rd_value r0 v k) \/ (True /\ failed r)).
Proof using C.
  intros Lv m an av. destruct (run_ok H ops) as (st & xs & R & _). destruct (bp_pview ops st xs v R Lv) as (x & Ex & PV). destruct (min_view H ops st xs v R Lv) as (x' & Ex' & V). rewrite Ex in Ex'. injection Ex' as <-.
  set (ver := a_ver (vs_a x)) in *. fold m in PV, V. exists ver, (min_reader H ops ver v). set (r0 := min_reader H ops ver v) in *.
  assert (Av : forall w k r, av w k r -> (w < num_versions ops)%N -> r = Ok (rd_value r0 w k) \/ (True /\ failed r)).
  { intros w k r [(s & Ps & ->)|F] L; [|by right; split]. left. cbn. rewrite decide_True by done. f_equal. by apply bp_values. }
  split; [exact V|]. split; [|split].
  - intros nk r [(s & Ps & ->)|F] N; [|by right; split; [|left]]. cbn in N |- *. fold m in N |- *. case_decide as D; [|done]. destruct (PV s Ps) as (Hn & _).
    destruct (rd_node (rd s) nk) as [nd|] eqn:E; [left|by right; split; [|right]]. by rewrite (Hn nk nd D E).
  - intros w k r Ar N. destruct (Av _ _ _ Ar) as [?|[_ ?]]; [cbn in N; by case_decide|by left|by right; split; [|left]].
  - intros k r Ar. by apply Av.
Qed.
Lemma b_lived_run ops r : b_reads_any ops r -> exists st xs, run H ops = Ok (st, xs).
Proof using. intros _. destruct (run_ok H ops) as (st & xs & R & _). eauto. Qed.

(** *** C99 *)
Theorem C99_answers_truly (ops : list op) (v : version) (r : reader) : (v < num_versions ops)%N -> b_reads_any ops r -> answers_truly H r v (contents_at (history ops) v).
Proof using C. intros Lv A. destruct (b_lived_run ops r A) as (st & xs & R). destruct (b_any_pview ops st xs v R Lv) as (ver & V). apply (pview_true H ver). by apply V. Qed.
(** in particular once everything has come to rest *)
Corollary C99_at_rest (ops : list op) (v : version) s : (v < num_versions ops)%N -> b_lived ops s -> answers_truly H (rd s) v (contents_at (history ops) v).
Proof using C. intros Lv L. apply C99_answers_truly; [done|]. assert (P : bp_any ops s) by (apply (bp_lived ops []); by rewrite app_nil_r). split; intros; by exists s. Qed.
Theorem C99_iterates_truly (ops : list op) (v : version) (r : reader) (start : key) it : (v < num_versions ops)%N -> b_reads_any ops r -> iter_new r v start = Ok it ->
  yields_truly (b_reads_any ops) it (entries_from start (contents_at (history ops) v)).
Proof using C.
  intros Lv A E. destruct (b_lived_run ops r A) as (st & xs & R). destruct (b_any_pview ops st xs v R Lv) as (ver & V). set (m := contents_at (history ops) v) in *. pose proof (V r A) as W.
  apply (rest_truly H _ ver v m); [done|]. apply (iter_new_le r (filled H ver r v m) (filled_le H _ _ _ _ W)) in E.
  destruct (filled_view H _ _ _ _ W) as (St & _). destruct (iter_new_ok H m ver _ v St start) as (it' & E' & Rt). rewrite E in E'. injection E' as ->. exact Rt.
Qed.
Theorem C99_iterates_truly_by_index (ops : list op) (v : version) (r : reader) (i : nat) it : (v < num_versions ops)%N -> b_reads_any ops r -> iter_new_by_index r v i = Ok it ->
  yields_truly (b_reads_any ops) it (drop i (entries (contents_at (history ops) v))).
Proof using C.
  intros Lv A E. destruct (b_lived_run ops r A) as (st & xs & R). destruct (b_any_pview ops st xs v R Lv) as (ver & V). set (m := contents_at (history ops) v) in *. pose proof (V r A) as W.
  apply (rest_truly H _ ver v m); [done|]. apply (iter_new_by_index_le r (filled H ver r v m) (filled_le H _ _ _ _ W)) in E.
  destruct (filled_view H _ _ _ _ W) as (St & _). destruct (iter_new_by_index_ok H m ver _ v St i) as (it' & E' & Rt). rewrite E in E'. injection E' as ->. exact Rt.
Qed.
(** Each single request may find another state, and may fail: there are fixed answers that read as the contents of the version, and every query that succeeds gives one of them. *)
Theorem C99_interleaved_reads (ops : list op) (v : version) : (v < num_versions ops)%N ->
  let m := contents_at (history ops) v in
  let an := b_node_or_fail rd (bp_any ops) in
  let av := b_value_or_fail rd (bp_any ops) in
  (exists r0, reader_reads_as H r0 v m /\ queries_as H equal_or_fails an av r0 v /\
    (forall start it, iter_new r0 v start = Ok it -> gives equal_or_fails an av it (entries_from start m)) /\
    (forall i it, iter_new_by_index r0 v i = Ok it -> gives equal_or_fails an av it (drop i (entries m)))) /\
  (forall h, may an av (get_root_hash_option_p H v) (Ok (Some h)) -> h = smt_root H m).
Proof using C.
  intros Lv m an av. destruct (bp_settle ops v Lv) as (ver & r0 & V & An & Av' & Avv). fold m in V. fold an in An. fold av in Av', Avv.
  assert (X : forall A (o o' : outcome A), o = o' \/ (True /\ failed o) -> equal_or_fails A o o') by (intros A o o' [->|[_ F]]; [by left|by right]).
  assert (Gv : forall l it, gives (fun A o o' => o = o' \/ (True /\ failed o)) an av it l -> gives equal_or_fails an av it l).
  { induction l as [|kx l IH]; intros it; cbn [gives]; [intros G o M; by apply X, G|]. intros (it' & G & G'). exists it'. split; [|by apply IH]. intros o M. by apply X, G. }
  split.
  - exists r0. split_and!.
    + apply view_reader. by exists ver.
    + pose proof (set_queries H True an av r0 ver v m V An Av' Avv) as (Q1 & Q2 & Q3 & Q4 & Q5 & Q6 & Q7 & Q8). unfold queries_as. split_and!; intros; apply X; auto.
    + intros start it E. destruct (iter_new_ok H m ver r0 v (proj1 V) start) as (it' & E' & Rt). rewrite E in E'. injection E' as <-. apply Gv. by apply (set_rest H True an av r0 ver v m V An Av').
    + intros i it E. destruct (iter_new_by_index_ok H m ver r0 v (proj1 V) i) as (it' & E' & Rt). rewrite E in E'. injection E' as <-. apply Gv. by apply (set_rest H True an av r0 ver v m V An Av').
  - intros h M. destruct (view_reader H r0 v m) as (_ & _ & _ & Ro & _); [by exists ver|]. unfold get_root_hash_option_p in M. apply may_bind in M as (o1 & M1 & M2). unfold req_node_option in M1. inversion M1 as [|nk' k' r o' Ar M'|]; subst. inversion M'; subst.
    assert (N : rd_node r0 (nk_root v) <> None) by (destruct V as ([Rt _] & _); unfold nk_root; by rewrite Rt). unfold get_root_hash_option, get_root_node_option in Ro.
    destruct (An _ _ Ar N) as [->|[_ [F| ->]]].
    + destruct (rd_node r0 (nk_root v)) as [nd|]; [|done]. apply may_done_inv in M2. pose proof (eq_trans M2 Ro) as Z. by injection Z.
    + destruct o1 as [a|e|]; [by destruct (F a)|done|done].
    + inversion M2.
Qed.
(** the states are those of any run *)
Theorem C99_runs (s0 : T) (ops : list op) s ys : held s0 = Held ∅ ∅ ∅ -> brun_from H rd write prune s0 0 ops = Ok (s, ys) -> b_lived ops s.
Proof using.
  intros E0 E. assert (G : forall more done s1, b_lived done s1 -> forall s ys, brun_from H rd write prune s1 (num_versions done) more = Ok (s, ys) -> b_lived (done ++ more) s).
  { induction more as [|o more IH]; intros dn s1 L s2 zs R; cbn [brun_from] in R.
    - injection R as <- _. by rewrite app_nil_r.
    - apply bind_inv' in R as ([sa xa] & Ea & R). apply bind_inv' in R as ([sb xb] & Eb & R). injection R as <- _. change (o :: more) with ([o] ++ more). rewrite app_assoc. eapply (IH (dn ++ [o]) sa); [by eapply bl_step|].
      rewrite num_versions_app. replace (num_versions [o]) with (N.of_nat (length (op_sets o))) by (unfold num_versions, history; cbn [flat_map]; by rewrite app_nil_r). exact Eb. }
  apply (G ops [] s0 (bl_empty s0 E0) s ys). exact E.
Qed.
End bpurged.

(** *** A concrete case: on the archiving store of ThmBackend.v, here without a lag, version 1 repeats version 0 and version 2 replaces one of its two keys; a reader of version 0 gets the root
    before, and all else after the store is pruned up to version 2.  The root it then answers is the true one; the proof for the key replaced fails. *)
Definition bpurged_ops : list op := [Commit [[(K00, Some va); (K80, Some vb)]; []; [(K80, Some va)]]].
Definition before_after (s s1 : holding) : reader :=
  mkReader (fun nk => match nk.2 with [] => h_nodes s !! nk | _ => h_nodes s1 !! nk end) (rd_value (archive_reader s1)) None.
Theorem demo_bpurged : exists s ys s1, brun_from toy archive_reader archive_write (archive_prune 0) (Held ∅ ∅ ∅) 0 bpurged_ops = Ok (s, ys) /\ archive_prune 0 s 2 = Ok s1 /\
  b_reads_any toy archive_reader archive_write (archive_prune 0) id bpurged_ops (before_after s s1) /\
  is_Some (h_nodes s !! (0, [])%N) /\ h_nodes s1 !! (0, [])%N = None /\
  get_root_hash toy (before_after s s1) 0 = Ok (smt_root toy {[ K00 := va; K80 := vb ]}) /\ exists e, get_with_proof toy (before_after s s1) K80 0 = Err e.
Proof.
  assert (E : match brun_from toy archive_reader archive_write (archive_prune 0) (Held ∅ ∅ ∅) 0 bpurged_ops with Ok (s, _) => match archive_prune 0 s 2 with Ok s1 =>
      match h_nodes s !! (0, [])%N, h_nodes s1 !! (0, [])%N, get_root_hash toy (before_after s s1) 0, get_with_proof toy (before_after s s1) K80 0 with Some _, None, Ok _, Err _ => true | _, _, _, _ => false end
    | _ => false end | _ => false end = true) by (vm_compute; reflexivity).
  destruct (brun_from toy archive_reader archive_write (archive_prune 0) (Held ∅ ∅ ∅) 0 bpurged_ops) as [[s ys]| |] eqn:R; [|discriminate E..].
  destruct (archive_prune 0 s 2) as [s1| |] eqn:P; [|discriminate E..]. exists s, ys, s1. split; [reflexivity|]. split; [exact P|].
  pose proof (C99_runs toy archive_reader archive_write (archive_prune 0) id (Held ∅ ∅ ∅) bpurged_ops s ys eq_refl R) as L.
  assert (A : b_reads_any toy archive_reader archive_write (archive_prune 0) id bpurged_ops (before_after s s1)).
  { assert (A0 : bp_any toy archive_reader archive_write (archive_prune 0) id bpurged_ops s) by (apply (bp_lived _ _ _ _ _ bpurged_ops []); exact L).
    assert (A1 : bp_any toy archive_reader archive_write (archive_prune 0) id bpurged_ops s1).
    { apply (bp_lived _ _ _ _ _ bpurged_ops [Purge 2]). eapply bl_step; [exact L|]. cbn [bstep]. rewrite P. reflexivity. }
    clear E R L. split.
    - intros [w [|n p]]; [exists s|exists s1]; (split; [assumption|reflexivity]).
    - intros w k. exists s1. split; [exact A1|reflexivity]. }
  split; [exact A|]. destruct (h_nodes s !! (0, [])%N) as [nd|]; [|discriminate E]. split; [by exists nd|]. destruct (h_nodes s1 !! (0, [])%N) as [nd1|]; [discriminate E|]. split; [reflexivity|].
  destruct (get_root_hash toy (before_after s s1) 0) as [h| |] eqn:Eh; [|discriminate E..]. destruct (get_with_proof toy (before_after s s1) K80 0) as [y|er|] eqn:Ep; [discriminate E| |discriminate E]. clear E R P L.
  split; [|by exists er]. f_equal.
  pose proof (C99_answers_truly toy archive_reader archive_write (archive_prune 0) id (archive_conforms 0) bpurged_ops 0 _ eq_refl A) as (_ & _ & Q & _). rewrite (Q h Eh).
  assert (Ec : contents_at (history bpurged_ops) 0 = {[ K00 := va; K80 := vb ]}) by (apply (bool_decide_eq_true_1 _); vm_compute; reflexivity). rewrite Ec. reflexivity.
Qed.
