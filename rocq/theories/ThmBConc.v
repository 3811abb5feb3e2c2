(** C93: crashes and concurrent readers on any store that keeps the contract of TreeReader and TreeWriter (C89, C91). *)
From Coq Require Import Strings.String.
From Verif Require Import Restore.
From Verif Require Import Base Spec SpecOrder SpecRange NodeType ProofDef TreeCache Tree BatchTree Mock MockSteps MockStepFacts Driver Iterator Exclusion KeyFacts SmtFacts ProofFacts NodeFacts Canon CanonSib ReadFacts PutFacts InsertFacts PutTop VersionFacts KeyOrder OrderFacts ValueFacts StoreFacts DriverFacts DriverFacts2 ThmProof ThmStore ThmStore2 Demo Toy RangeFacts ThmRange ThmIter
  RestoreFacts RestoreDriver RestoreRun ThmCrash ThmPurged ThmOrigin ThmContinue ThmRedo ThmBackend ThmBRestore ThmBOrigin.
From Coq Require Import Lia.
Local Opaque Spec.smt root_inputs ms_in.

Section bconc.
Context (H : list byte -> bytes32) {T : Type}.
Context (rd : T -> reader) (write : T -> tree_batch -> outcome T) (prune : T -> version -> outcome T)
  (wnb : T -> gmap nodekey node -> gmap (version * key) (option value) -> outcome T) (held : T -> holding).
(** *** Specification *)
(** The states a store passes through from [s] on (its next version being [n], its oldest readable version [f]), as long as version [v] is kept: between two operations, in the middle of
    writing the batch of a commit, in the middle of pruning (partly_stored, partly_dropped: ThmBOrigin.v). *)
Inductive b_passes (n f : version) (s : T) (v : version) : T -> Prop :=
| bp_between more s1 ys : brun_from H rd write prune s n more = Ok (s1, ys) -> ((fold_left floor_step more (f, n)).1 <= v)%N -> b_passes n f s v s1
| bp_commit more s1 ys sets roots b s2 : brun_from H rd write prune s n more = Ok (s1, ys) -> ((fold_left floor_step more (f, n)).1 <= v)%N ->
    put_value_sets H (rd s1) sets (n + num_versions more) = Ok (roots, b) -> partly_stored b (held s1) (held s2) -> b_passes n f s v s2
| bp_prune more s1 ys l s2 : brun_from H rd write prune s n more = Ok (s1, ys) -> ((fold_left floor_step (more ++ [Purge l]) (f, n)).1 <= v)%N ->
    partly_dropped l (held s1) (held s2) -> b_passes n f s v s2.
(** a reader that answers each request for a node or a value from one of those states *)
Definition b_reads_along (n f : version) (s : T) (v : version) (r : reader) : Prop :=
  (forall nk, exists s', b_passes n f s v s' /\ rd_node r nk = rd_node (rd s') nk) /\
  (forall w k, exists s', b_passes n f s v s' /\ rd_value r w k = rd_value (rd s') w k).

(** *** Proof *)
Context (C : conforms rd write prune held) (CR : conforms_restore rd wnb held).
Notation b_in_use := (b_in_use H rd write prune wnb held).
Notation kept := (kept held).
Lemma latest_ext vals vals' v k x : (forall w, (w <= v)%N -> vals !! (w, k) = vals' !! (w, k)) -> latest vals v k x <-> latest vals' v k x.
Proof using. clear. intros E. unfold latest. split; intros (w & L & Ew & N); exists w; (split; [done|]); (split; [rewrite <- Ew; first [by apply E|symmetry; by apply E]|]); intros w' L1 L2; rewrite <- (N w' L1 L2); first [by apply E|symmetry; by apply E]. Qed.
Lemma kept_vview ver n t s w m : vview H ver (store_reader t) w m -> (w < n)%N -> kept n t s -> vview H ver (rd s) w m.
Proof using C.
  intros V L K. eapply vview_mono; [exact V|exact L| |].
  - intros nk nd E. rewrite (cf_node _ _ _ _ C). destruct K as (C1 & C2 & _). pose proof (C1 nk nd E) as E'. split; [exact E'|by eapply C2].
  - intros w' k _. by apply (kept_value rd write prune held C n).
Qed.
(** what was there before a commit is still there in the middle of it *)
Lemma stored_keeps n f c t s sets roots b s' : in_use H n f c t -> kept n t s -> put_value_sets H (rd s) sets n = Ok (roots, b) -> partly_stored b (held s) (held s') ->
  (forall nk nd, rd_node (rd s) nk = Some nd -> rd_node (rd s') nk = Some nd /\ (nk.1 < n)%N) /\ (forall w k, (w < n)%N -> rd_value (rd s') w k = rd_value (rd s) w k) /\
  (forall nk nd, rd_node (rd s') nk = Some nd -> (nk.1 < n + N.of_nat (length sets))%N).
Proof using C.
  intros U K P (N & V & S & Ln & Lv & Ls & Eh). destruct (kept_put H rd write prune held C n f c t s sets U K) as [Ep _]. rewrite Ep in P. destruct (batch_versions H _ _ _ _ _ _ _ U P) as (B1 & B2 & B3).
  destruct K as (C1 & C2 & C3 & C4 & C5). split; [|split].
  - intros nk nd E. rewrite (cf_node _ _ _ _ C) in E |- *. rewrite Eh. cbn [h_nodes]. split; [|by eapply C2]. apply lookup_union_Some_raw. right. split; [|exact E].
    destruct (N !! nk) as [nd'|] eqn:E'; [|done]. apply (lookup_weaken _ _ _ _ E'), B1 in Ln. apply C2 in E. lia.
  - intros w k L. apply option_eq. intros x. rewrite !(cf_value _ _ _ _ C), Eh. cbn [h_values]. apply latest_ext. intros w' L'. rewrite lookup_union. destruct (V !! (w', k)) as [y|] eqn:E'; [|by destruct (h_values (held s) !! (w', k))].
    apply (lookup_weaken _ _ _ _ E'), B3 in Lv. lia.
  - intros nk nd E. rewrite (cf_node _ _ _ _ C), Eh in E. cbn [h_nodes] in E. apply lookup_union_Some_raw in E as [E|[_ E]]; [|apply C2 in E; lia]. apply (lookup_weaken _ _ _ _ E), B1 in Ln. lia.
Qed.
Lemma run_snoc_from t n more ys t1 o t2 x : run_from H t n more = Ok (t1, ys) -> step H t1 (n + num_versions more) o = Ok (t2, x) -> exists zs, run_from H t n (more ++ [o]) = Ok (t2, zs).
Proof using.
  clear. revert t n ys. induction more as [|o' more IH]; intros t n ys R E; cbn [run_from app] in *.
  - injection R as -> <-. change (num_versions []) with 0%N in E. rewrite N.add_0_r in E. rewrite E, bind_Ok. eauto.
  - apply bind_inv' in R as ([ta xa] & Ea & R). apply bind_inv' in R as ([tb xb] & Eb & R). injection R as <- <-. rewrite Ea, bind_Ok. destruct (IH _ _ _ Eb) as (zs & R').
    { rewrite <- E. f_equal. unfold num_versions, history. cbn [flat_map]. rewrite app_length. lia. } rewrite R', bind_Ok. eauto.
Qed.
Lemma b_passes_view n f c s w : b_in_use n f c s -> (f <= w)%N -> (w < n)%N -> exists ver, forall s', b_passes n f s w s' -> vview H ver (rd s') w (c w).
Proof using C CR.
  intros U L1 L2. destruct (b_refines H rd write prune wnb held C CR _ _ _ _ U) as (t & Ut & K). destruct (passes_from_view H n f c t w Ut L1 L2) as (ver & V). exists ver.
  assert (G : forall more s1 ys, brun_from H rd write prune s n more = Ok (s1, ys) -> exists t1, run_from H t n more = Ok (t1, ys) /\ kept (n + num_versions more) t1 s1 /\
      in_use H (n + num_versions more) (fold_left floor_step more (f, n)).1 (later n c more) t1).
  { intros more s1 ys R. destruct (kept_run H rd write prune held C more n f c t s s1 ys Ut K R) as (t1 & R1 & K1). exists t1. split; [done|]. split; [done|]. by eapply in_use_more. }
  intros s' [more s1 ys R Lf|more s1 ys sets roots b s2 R Lf P Ps|more s1 ys l s2 R Lf Ps]; destruct (G _ _ _ R) as (t1 & R1 & K1 & U1).
  - eapply kept_vview; [by apply V; eapply pf_between| |exact K1]. lia.
  - assert (V1 : vview H ver (rd s1) w (c w)) by (eapply kept_vview; [by apply V; eapply pf_between| |exact K1]; lia).
    destruct (stored_keeps _ _ _ _ _ _ _ _ _ U1 K1 P Ps) as (I1 & I2 & _). eapply vview_mono; [exact V1| |exact I1|exact I2]. lia.
  - destruct (in_use_step H _ _ _ _ (Purge l) U1) as (t2 & x & _ & _ & E & _). destruct (run_snoc_from t n more ys t1 (Purge l) t2 x R1 E) as (zs & R2). cbn [step] in E. apply bind_inv' in E as (t3 & Pg & E). injection E as <- <-.
    eapply kept_vview; [apply V; by eapply pf_between| |eapply (kept_half rd write prune held C _ _ _ l); [exact K1|exact Pg|exact Ps]]. lia.
Qed.
Lemma b_along_view n f c s w r : b_in_use n f c s -> (f <= w)%N -> (w < n)%N -> b_reads_along n f s w r -> view H r w (c w).
Proof using C CR.
  intros U L1 L2 [Cn Cv]. destruct (b_passes_view n f c s w U L1 L2) as (ver & V). exists ver. split; [split|split].
  - destruct (Cn (w, [])) as (s' & Ps & ->). by destruct (V s' Ps) as [[? _] _].
  - intros p Hp i Ne. destruct (Cn (ver (p ++ [i]), p ++ [i])) as (s' & Ps & ->). destruct (V s' Ps) as [[_ K] _]. by apply K.
  - intros p i k y Mn E. destruct (Cv (ver (p ++ [i])) k) as (s' & Ps & ->). destruct (V s' Ps) as (_ & K & _). by eapply K.
  - intros k. destruct (Cv w k) as (s' & Ps & ->). destruct (V s' Ps) as (_ & _ & K). apply K.
Qed.

(** *** C93 *)
(** A crash at any point: every version that is kept reads as before. *)
Theorem C93_crash n f c s w s' : b_in_use n f c s -> (f <= w)%N -> (w < n)%N -> b_passes n f s w s' -> reader_reads_as H (rd s') w (c w).
Proof using C CR. intros U L1 L2 P. apply view_reader. destruct (b_passes_view n f c s w U L1 L2) as (ver & V). exists ver. by apply V. Qed.
(** A reader that runs concurrently with commits and prunings, or that is interrupted and goes on after a crash, gets to every query the answer of the undisturbed store. *)
Theorem C93_concurrent n f c s w r : b_in_use n f c s -> (f <= w)%N -> (w < n)%N -> b_reads_along n f s w r -> reader_reads_as H r w (c w) /\ same_answers H r w (rd s) w.
Proof using C CR.
  intros U L1 L2 A. pose proof (b_along_view n f c s w r U L1 L2 A) as V. split; [by apply view_reader|]. eapply view_same; [exact V|].
  destruct (b_refines H rd write prune wnb held C CR _ _ _ _ U) as (t & Ut & K). by eapply kept_view.
Qed.
(** After a crash in the middle of a commit, any commit at the same version that does not empty the tree on the way returns what it would have returned without the attempt. *)
Theorem C93_redo n f c s sets sets' roots' b' s1 : b_in_use n f c s -> put_value_sets H (rd s) sets' n = Ok (roots', b') -> partly_stored b' (held s) (held s1) ->
  (n + N.of_nat (length sets') < 2 ^ 64)%N -> never_empties (c (n - 1)%N) sets -> put_value_sets H (rd s1) sets n = put_value_sets H (rd s) sets n.
Proof using C CR.
  intros U P Ps Lt Ne. destruct (b_refines H rd write prune wnb held C CR _ _ _ _ U) as (t & Ut & K). destruct (stored_keeps _ _ _ _ _ _ _ _ _ Ut K P Ps) as (I1 & _ & I3).
  destruct (kept_put H rd write prune held C n f c t s sets Ut K) as [Ep _]. rewrite Ep.
  assert (Le : forall nk nd, rd_node (store_reader t) nk = Some nd -> rd_node (rd s1) nk = Some nd).
  { intros nk nd E. apply I1. rewrite (cf_node _ _ _ _ C). by apply K. }
  pose proof (in_use_okay H _ _ _ _ Ut) as (B & ops' & En & S & _ & El). cbn zeta in S. set (tb := xrun H tb0 ops') in *. destruct (commit_batchB H B _ _ _ _ _ sets S) as (_ & b & pfss & C1 & _). rewrite En in C1. rewrite C1.
  pose proof (sb_bmap _ _ _ _ _ _ _ S) as Bm. pose proof (sb_len _ _ _ _ _ _ _ S) as Len. rewrite <- El in Ne. apply never_nonempties with (H := H) in Ne. rewrite <- Bm in Ne.
  unfold put_value_sets in C1 |- *. apply bind_inv' in C1 as (x & Ec & Ei). destruct (decide (tb.1 = [])) as [Et|Et].
  - assert (E0 : n = 0%N) by (rewrite <- En, <- Len, Et; done). rewrite E0 in *.
    assert (Eb : tb.2 = b0). { destruct (sb_tr _ _ _ _ _ _ _ S) as [[_ ?]|Q]; [done|]. exfalso. destruct Q; [done|]. by apply app_eq_nil in Et as [_ ?]. } rewrite Eb in Ne.
    assert (Hrd : forall nk, rd_node (store_reader t) nk = None).
    { intros nk. cbn. destruct (st_nodes t !! nk) as [nd|] eqn:E; [|done]. apply (sb_nodes _ _ _ _ _ _ _ S) in E as [(y & Hy & _) _]. rewrite Et in Hy. by apply elem_of_nil in Hy. }
    assert (Hp : rd_node (rd s1) (nk_root PRE_GENESIS_VERSION) = None).
    { destruct (rd_node (rd s1) _) as [nd|] eqn:E; [|done]. apply I3 in E. unfold nk_root, PRE_GENESIS_VERSION in E. cbn [fst] in E. exfalso. clear -E Lt. lia. }
    rewrite (put_sets_mono_first H (store_reader t) (rd s1) Le sets x Hrd Hp Ne Ec), bind_Ok. done.
  - destruct (sb_binv H B t tb.1 tb.2 _ _ S Et) as (BI & Rd & _). rewrite Len, En in BI, Rd.
    assert (Ec' : cache_new (rd s1) n = cache_new (store_reader t) n).
    { unfold cache_new. assert (n <> 0%N) by (rewrite <- En, <- Len; destruct tb.1; cbn; [done|lia]). destruct (N.eqb_spec n 0); [done|]. done. }
    rewrite Ec'. rewrite (put_sets_mono H (store_reader t) (rd s1) Le sets n _ _ x BI Rd Ne Ec), bind_Ok. done.
Qed.
(** ... and writing the batch again, if the store lets it, is the commit: the store goes on as ever. *)
Theorem C93_redone n f c s sets roots b s1 s2 : b_in_use n f c s -> put_value_sets H (rd s) sets n = Ok (roots, b) -> partly_stored b (held s) (held s1) -> write s1 b = Ok s2 ->
  b_in_use (n + N.of_nat (length sets)) f (later n c [Commit sets]) s2 /\ forall s3, write s b = Ok s3 -> held s2 = held s3.
Proof using C.
  intros U P Ps W. split.
  - replace (N.of_nat (length sets)) with (num_versions [Commit sets]) by (unfold num_versions, history; cbn [flat_map op_sets]; by rewrite app_nil_r). by eapply b_redone.
  - intros s3 W3. rewrite (cf_write _ _ _ _ C _ _ _ W), (cf_write _ _ _ _ C _ _ _ W3). by apply stored_again.
Qed.
(** A crash in the middle of pruning counts as the pruning. *)
Theorem C93_pruned n f c s l s' : b_in_use n f c s -> partly_dropped l (held s) (held s') -> b_in_use n (floor_step (f, n) (Purge l)).1 (later n c [Purge l]) s'.
Proof using. intros U P. rewrite <- (N.add_0_r n) at 1. by apply (b_half_pruned _ _ _ _ _ _ n f c s l s'). Qed.
End bconc.

(** *** A concrete case: after [demo] (Demo.v) on the archiving store of ThmBackend.v, the commit of version 5 deletes a key; a crash leaves its nodes in the store, but neither its values nor its
    indices. Version 4 reads as before, and the commit, tried again, gives the same batch. *)
Theorem demo_bcrash : let e := Held ∅ ∅ ∅ in exists s ys roots b, let s1 := Held (tb_nodes b ∪ h_nodes s) (h_values s) (h_stale s) in
  brun_from toy ark_reader archive_write (archive_prune 9) e 0 demo = Ok (s, ys) /\ put_value_sets toy (ark_reader s) [[(K80, None)]] 5 = Ok (roots, b) /\ tb_nodes b <> ∅ /\ partly_stored b s s1 /\
  b_passes toy ark_reader archive_write (archive_prune 9) id 5 2 s 4 s1 /\ get_root_hash toy (ark_reader s1) 4 = Ok (smt_root toy demo_map) /\
  put_value_sets toy (ark_reader s1) [[(K80, None)]] 5 = Ok (roots, b).
Proof.
  intros e. destruct (ark_conforms 9) as [Cf Ac]. destruct ark_restores as [Cr An].
  destruct (C91_goes_on toy ark_reader archive_write (archive_prune 9) ark_wnb id Cf Cr 0 0 _ e demo (b_empty toy ark_reader archive_write (archive_prune 9) ark_wnb id e eq_refl)) as (tm & _ & G1 & G2).
  destruct (G2 Ac) as (s & ys & R). destruct (G1 _ _ R) as (_ & _ & U). clear G1 G2 tm. assert (E5 : (0 + num_versions demo)%N = 5%N) by reflexivity. assert (Ef : (fold_left floor_step demo (0, 0)%N).1 = 2%N) by reflexivity. rewrite E5, Ef in U.
  set (c := later 0 (fun _ => ∅) demo) in *. assert (Ec : c 4%N = demo_map) by (apply (bool_decide_eq_true_1 _); vm_compute; reflexivity).
  assert (Q : match brun_from toy ark_reader archive_write (archive_prune 9) e 0 demo with Ok (s, _) => match put_value_sets toy (ark_reader s) [[(K80, None)]] 5 with Ok (_, b) => bool_decide (tb_nodes b <> ∅) | _ => false end | _ => false end = true) by (vm_compute; reflexivity).
  rewrite R in Q. destruct (put_value_sets toy (ark_reader s) [[(K80, None)]] 5) as [[roots b]| |] eqn:P; [|discriminate Q|discriminate Q]. apply bool_decide_eq_true_1 in Q.
  set (s1 := Held (tb_nodes b ∪ h_nodes s) (h_values s) (h_stale s)).
  assert (Ps : partly_stored b s s1).
  { exists (tb_nodes b), ∅, ∅. split; [reflexivity|]. split; [apply map_empty_subseteq|]. split; [apply empty_subseteq|]. unfold s1. f_equal; [symmetry; apply (left_id_L ∅ (∪))|symmetry; apply (left_id_L ∅ (∪))]. }
  assert (Pa : b_passes toy ark_reader archive_write (archive_prune 9) id 5 2 s 4 s1).
  { eapply (bp_commit toy ark_reader archive_write (archive_prune 9) id 5 2 s 4 [] s [] [[(K80, None)]] roots b s1); [reflexivity|cbn; lia| |exact Ps]. exact P. }
  exists s, ys, roots, b. split; [exact R|]. split; [exact P|]. split; [exact Q|]. split; [exact Ps|]. split; [exact Pa|]. split.
  - pose proof (C93_crash toy ark_reader archive_write (archive_prune 9) ark_wnb id Cf Cr 5 2 c s 4 s1 U ltac:(lia) ltac:(lia) Pa) as (_ & _ & Er & _). rewrite Ec in Er. exact Er.
  - fold s1. rewrite <- P. eapply (C93_redo toy ark_reader archive_write (archive_prune 9) ark_wnb id Cf Cr 5 2 c s _ _ roots b s1 U P Ps); [cbn; lia|]. replace (c (5 - 1)%N) with demo_map by (symmetry; exact Ec).
    split; [|exact I]. intros s1' s2' Es Ne. destruct s1' as [|x [|y s1']]; [by elim Ne| |discriminate Es]. injection Es as <- _.
    intros Z. apply (f_equal (lookup K00)) in Z. revert Z. vm_compute. discriminate.
Qed.
