(** C72: requests that fail; and C63, C64, C71 again with every single request answered on its own: the same node may
    be asked for twice and be found in two different states of the store. *)
From Coq Require Import Strings.String.
From Verif Require Import Base Spec SpecOrder SpecRange NodeType ProofDef TreeCache Tree BatchTree Mock Driver Iterator Exclusion KeyFacts SmtFacts ProofFacts NodeFacts Canon CanonSib ReadFacts PutFacts InsertFacts PutTop VersionFacts ValueFacts StoreFacts DriverFacts DriverFacts2 LeafVersion KeyOrder OrderFacts IterFacts ExclFacts ThmProof ThmStore ThmRange ThmIter ThmExcl ThmBatch ThmCrash ThmConc ThmPurged CommitMono ThmDamaged Requests RequestFacts RequestSafe Demo Toy.
From Coq Require Import Lia.
Local Opaque Spec.smt.

(** *** Specification *)
(** The answers of a reader whose requests may fail: each answer is the reader's, or an error (or panic). *)
Definition or_fails {A} (a : option A) (r : outcome (option A)) : Prop := r = Ok a \/ forall y, r <> Ok y.
Definition flaky_node (rd : reader) (nk : nodekey) : outcome (option node) -> Prop := or_fails (rd_node rd nk).
Definition flaky_value (rd : reader) (w : version) (k : key) : outcome (option value) -> Prop := or_fails (rd_value rd w k).
(** The answers found in any one of the states [P] of a store. *)
Definition some_node (P : store -> Prop) (nk : nodekey) (r : outcome (option node)) : Prop := exists s, P s /\ r = Ok (st_nodes s !! nk).
Definition some_value (P : store -> Prop) (w : version) (k : key) (r : outcome (option value)) : Prop := exists s, P s /\ r = Ok (store_value s w k).
(** The same, and requests may fail. *)
Definition some_node_or_fail (P : store -> Prop) (nk : nodekey) (r : outcome (option node)) : Prop := some_node P nk r \/ forall y, r <> Ok y.
Definition some_value_or_fail (P : store -> Prop) (w : version) (k : key) (r : outcome (option value)) : Prop := some_value P w k r \/ forall y, r <> Ok y.

(** Every way to run the queries about version [v] ends in a result [same] as the one on the reader [rd]. *)
Section spec.
Context (H : list byte -> bytes32) (same : forall A, outcome A -> outcome A -> Prop) (an : nodekey -> outcome (option node) -> Prop) (av : version -> key -> outcome (option value) -> Prop).
Definition queries_as (rd : reader) (v : version) : Prop :=
  (forall k o, may an av (get_p k v) o -> same _ o (get rd k v)) /\
  (forall k o, may an av (get_with_proof_p H k v) o -> same _ o (get_with_proof H rd k v)) /\
  (forall o, may an av (get_root_hash_p H v) o -> same _ o (get_root_hash H rd v)) /\
  (forall o, may an av (get_leaf_count_p v) o -> same _ o (get_leaf_count rd v)) /\
  (forall k o, may an av (get_range_proof_p H k v) o -> same _ o (get_range_proof H rd k v)) /\
  (forall k o, may an av (get_with_exclusion_proof_p H k v) o -> same _ o (get_with_exclusion_proof H rd k v)) /\
  (forall start o, may an av (iter_new_p v start) o -> same _ o (iter_new rd v start)) /\
  (forall i o, may an av (iter_new_by_index_p v i) o -> same _ o (iter_new_by_index rd v i)).
(** Every way to run an iterator gives the items [l] and then ends. *)
Fixpoint gives (it : jmt_iter) (l : list (key * value)) : Prop :=
  match l with
  | [] => forall o, may an av (iter_next_p it) o -> same _ o (Ok (None, it))
  | kx :: l' => exists it', (forall o, may an av (iter_next_p it) o -> same _ o (Ok (Some kx, it'))) /\ gives it' l'
  end.
(** Every way to run a commit of version [n] ends in a result [same] as the one on the reader [rd]. *)
Definition commits_as (rd : reader) (n : version) : Prop :=
  (forall sets o, may an av (put_value_sets_p H sets n) o -> same _ o (put_value_sets H rd sets n)) /\
  (forall sets o, may an av (put_value_sets_with_proof_p H sets n) o -> same _ o (put_value_sets_with_proof H rd sets n)) /\
  (forall ins o, Forall (fun s => s <> []) ins -> may an av (batch_put_value_sets_p H ins None n) o -> same _ o (batch_put_value_sets H rd ins None n)).
End spec.
Definition equal (A : Type) (o o' : outcome A) : Prop := o = o'.
Definition equal_or_fails (A : Type) (o o' : outcome A) : Prop := o = o' \/ forall y, o <> Ok y.

(** *** Failing requests *)
Section c72.
Context (H : list byte -> bytes32) (rd : reader).
Lemma sound {A} R (Q : A -> Prop) (p : prog A) o : safe R Q p -> may (flaky_node rd) (flaky_value rd) p o -> equal_or_fails A o (runp rd p).
Proof.
  intros S M. destruct o as [y|e|]; [|by right..]. left. symmetry. eapply safe_sound; [..|exact S|exact M].
  - intros nk r [->|F]; [by right; left|by left].
  - intros w x r [->|F]; [by right; left|by left].
Qed.
Theorem C72_queries v : queries_as H equal_or_fails (flaky_node rd) (flaky_value rd) rd v.
Proof.
  unfold queries_as. split_and!.
  - intros k o M. rewrite <- get_p_ok. unfold get_p, req_value_option in *. inversion M as [| |w x kk r o' Ar M']; subst. inversion M'; subst. destruct Ar as [->|F]; [by left|by right].
  - intros k o M. rewrite <- get_with_proof_p_ok. eapply sound; [apply (safe_gwp H (fun _ => true))|done].
  - intros o M. rewrite <- get_root_hash_p_ok. eapply sound; [apply (safe_root_hash H (fun _ => true))|done].
  - intros o M. rewrite <- get_leaf_count_p_ok. eapply sound; [apply (safe_leaf_count (fun _ => true))|done].
  - intros k o M. rewrite <- get_range_proof_p_ok. eapply sound; [apply (safe_range H (fun _ => true))|done].
  - intros k o M. rewrite <- get_with_exclusion_proof_p_ok. eapply sound; [apply (safe_excl H (fun _ => true))|done].
  - intros start o M. rewrite <- iter_new_p_ok. eapply sound; [apply (safe_iter_new (fun _ => true))|done].
  - intros i o M. rewrite <- iter_new_by_index_p_ok. eapply sound; [apply (safe_iter_index (fun _ => true))|done].
Qed.
Theorem C72_root_hash_option v o : may (flaky_node rd) (flaky_value rd) (get_root_hash_option_p H v) o -> equal_or_fails _ o (get_root_hash_option H rd v).
Proof. intros M. rewrite <- get_root_hash_option_p_ok. eapply sound; [by apply (safe_root_hash_option H (fun _ => true))|done]. Qed.
Theorem C72_iter_next it o : may (flaky_node rd) (flaky_value rd) (iter_next_p it) o -> equal_or_fails _ o (iter_next rd it).
Proof. intros M. rewrite <- iter_next_p_ok. eapply sound; [apply (safe_iter_next (fun _ => true))|done]. Qed.
Theorem C72_commits n : commits_as H equal_or_fails (flaky_node rd) (flaky_value rd) rd n /\
  (forall ins hashes o, may (flaky_node rd) (flaky_value rd) (batch_put_value_sets_p H ins hashes n) o -> equal_or_fails _ o (batch_put_value_sets H rd ins hashes n)).
Proof.
  unfold commits_as. split_and!.
  - intros sets o M. rewrite <- put_value_sets_p_ok. eapply sound; [apply (safe_put_value_sets H 0); lia|done].
  - intros sets o M. rewrite <- put_value_sets_with_proof_p_ok. eapply sound; [apply (safe_put_value_sets_wp H 0); lia|done].
  - intros ins o _ M. rewrite <- batch_put_value_sets_p_ok. eapply sound; [apply (safe_batch_put H 0); lia|done].
  - intros ins hs o M. rewrite <- batch_put_value_sets_p_ok. eapply sound; [apply (safe_batch_put H 0); lia|done].
Qed.
End c72.

Lemma may_done_inv an av {A} (o o' : outcome A) : may an av (Done o) o' -> o' = o.
Proof. by inversion 1. Qed.
(** *** Interleaved reads *)
Section inter.
Context (H : list byte -> bytes32).
Lemma passes_is_any ops v s : passes H ops v s -> passes_any H ops s.
Proof. intros [more st' xs' R' Rv'|more st' xs' o y b st1 s' R' Rv' E Eb P|more st' xs' l s' R' Rv' P]; [by eapply any_between|by eapply any_commit|by eapply any_purge]. Qed.
Lemma any_values ops s w k : passes_any H ops s -> (w < num_versions ops)%N -> store_value s w k = contents_at (history ops) w !! k.
Proof.
  intros P L. assert (L' : forall more, (w < num_versions (ops ++ more))%N) by (intros more; unfold num_versions in *; rewrite history_app, app_length; lia).
  assert (G : forall more st' xs', run H (ops ++ more) = Ok (st', xs') -> store_value st' w k = contents_at (history ops) w !! k).
  { intros more st' xs' R'. apply run_inv in R' as [_ S]. pose proof (value_ok H _ _ _ _ _ w k S) as E. cbn in E. by rewrite E, history_more. }
  destruct P as [more st' xs' R'|more st' xs' o y b st1 s' R' E Eb P|more st' xs' l s' R' P].
  - by eapply G.
  - destruct (commit_keeps H _ _ _ _ _ _ _ _ R' E Eb P) as [_ I2]. rewrite I2 by done. by eapply G.
  - apply purge_only_removes in P as [_ I2]. unfold store_value. rewrite I2. by eapply G.
Qed.
Local Instance needs_dec' ver M v nk : Decision (needs ver M v nk).
Proof. unfold needs. apply _. Defined.
(** the nodes of one version and the values of all versions so far, nothing else *)
Definition min_reader (ops : list op) (ver : list nibble -> version) (v : version) : reader :=
  mkReader (fun nk => if decide (needs ver (H <$> contents_at (history ops) v) v nk) then Some (node_at H (H <$> contents_at (history ops) v) ver nk.2) else None)
    (fun w k => if decide (w < num_versions ops)%N then contents_at (history ops) w !! k else None) None.
Lemma min_view ops st xs v : run H ops = Ok (st, xs) -> (v < num_versions ops)%N -> exists x, (xrun H tb0 ops).1 !! N.to_nat v = Some x /\
  vview H (a_ver (vs_a x)) (min_reader ops (a_ver (vs_a x)) v) v (contents_at (history ops) v).
Proof.
  intros R Lv. destruct (run_pview H ops st xs v R Lv) as (x & Ex & B & V1 & V2 & V3). exists x. split; [done|]. set (ver := a_ver (vs_a x)) in *. set (m := contents_at (history ops) v) in *.
  pose proof R as R0. apply run_inv in R0 as [_ S]. split; [split|split].
  - cbn. by rewrite decide_True by (by left).
  - intros p Hp n Ne. cbn. rewrite decide_True; [done|]. right. cbn [fst snd]. rewrite parent_snoc. split_and!; [by destruct p|done..].
  - intros p n k y Mn EU. cbn. rewrite decide_True.
    + pose proof (V2 p n k y Mn EU) as E. rewrite (value_ok H _ _ _ _ _ _ _ S) in E. exact E.
    + apply (B (ver (p ++ [n]), p ++ [n])). right. cbn [fst snd]. rewrite parent_snoc, U_fm_size. split_and!; [by destruct p|done|done|]. rewrite U_fm, EU, map_fmap_singleton. apply insert_non_empty.
  - intros k. cbn. by rewrite decide_True.
Qed.

Section settle.
Context (fl : Prop) (an : nodekey -> outcome (option node) -> Prop) (av : version -> key -> outcome (option value) -> Prop) (rd : reader) (ver : list nibble -> version) (v : version) (m : gmap key value).
Context (V : vview H ver rd v m).
Context (An : forall nk r, an nk r -> rd_node rd nk <> None -> r = Ok (rd_node rd nk) \/ (fl /\ (failed r \/ r = Ok None))) (Av : fair_v fl rd av).
Notation set p := (settled fl rd an av p).
Lemma fair_none : fair_n fl rd an (fun _ => false).
Proof. intros nk r Ar [N|N]; [|done]. destruct (An _ _ Ar N) as [->|[Fl [F|F]]]; [by left|by right; split; [|left]|by right; split; [|right]]. Qed.
Lemma settle {A} (Q : A -> Prop) (p : prog A) y : safe (fun _ => false) Q p -> runp rd p = Ok y -> set p.
Proof. intros S E. eapply settled_safe; [apply fair_none|exact Av|exact S|exact E]. Qed.
Lemma set_gwp k : set (get_with_proof_p H k v).
Proof. destruct (view_reader H rd v m) as (_ & P & _); [by exists ver|]. destruct (P k) as (p & E & _). eapply settle; [apply safe_gwp|]. rewrite get_with_proof_p_ok. exact E. Qed.
Lemma set_range k : set (get_range_proof_p H k v).
Proof. unfold get_range_proof_p. apply settled_bind; [apply set_gwp|]. intros [x p] _. apply settled_done. Qed.
Lemma set_excl k : set (get_with_exclusion_proof_p H k v).
Proof.
  destruct (view_reader H rd v m) as (_ & P & _ & _ & _ & _ & E1 & E2 & _); [by exists ver|].
  destruct (m !! k) as [x|] eqn:Ek; [destruct (E2 k x Ek) as (p & E & _); eapply settle; [apply safe_excl|]; rewrite get_with_exclusion_proof_p_ok; exact E|].
  destruct (decide (m = ∅)) as [Em|Ne]; [|destruct (E1 k Ek Ne) as (e & E & _); eapply settle; [apply safe_excl|]; rewrite get_with_exclusion_proof_p_ok; exact E].
  unfold get_with_exclusion_proof_p. apply settled_bind; [apply set_gwp|]. intros [y p] E. rewrite get_with_proof_p_ok in E. destruct (P k) as (p' & E' & _). rewrite E in E'. injection E' as -> ->. rewrite Ek.
  assert (Rt : rd_node rd (nk_root v) = Some Null).
  { destruct V as ([Rt _] & _). unfold nk_root. rewrite Rt, Em, fmap_empty, node_at_null; [done|]. by rewrite U_nil. }
  assert (B : set (get_bounding_path_p k v) /\ exists e, runp rd (get_bounding_path_p k v) = Err e).
  { unfold get_bounding_path_p. generalize (key_nibbles k). intros l.
    assert (K : set (search_loop_p k v l [] (nk_root v) []) /\ exists e, runp rd (search_loop_p k v l [] (nk_root v) []) = Err e).
    { split; [|eexists; destruct l; cbn; rewrite Rt; reflexivity].
      assert (Q : set (req_at true v (nk_root v)) /\ runp rd (req_at true v (nk_root v)) = Ok Null).
      { assert (X : runp rd (req_at true v (nk_root v)) = Ok Null) by (rewrite req_at_ok, Rt; done). split; [|done]. eapply settle; [apply safe_req_at|exact X]. }
      destruct Q as [Q1 Q2]. destruct l; cbn [search_loop_p]; (apply settled_bind; [exact Q1|]); intros a Ea; cbn [length Nat.eqb] in Ea; rewrite Q2 in Ea; injection Ea as <-; apply settled_done. }
    destruct K as [K (e & Ke)]. split; [apply settled_bind; [exact K|]; intros a Ea; rewrite Ke in Ea; done|]. exists e. rewrite runp_bind, Ke. done. }
  destruct B as [B (e & Be)]. apply settled_bind; [exact B|]. intros a Ea. rewrite Be in Ea. done.
Qed.
Lemma set_rest : forall l it, it_rest H m ver v it l -> gives (fun A o o' => o = o' \/ (fl /\ failed o)) an av it l.
Proof.
  destruct V as (St & Hv & Hk). assert (Hv0 : forall k x, m = {[ k := x ]} -> rd_value rd v k = Some x) by (intros k x F; rewrite Hk, F; apply lookup_singleton).
  induction l as [|kx l IH]; intros it Rt; cbn [gives]; pose proof (iter_next_ok H m ver rd v St Hv Hv0 it _ Rt) as E; cbn beta iota in E.
  - intros o M. rewrite <- E, <- iter_next_p_ok. eapply settle; [apply safe_iter_next| |exact M]. rewrite iter_next_p_ok. exact E.
  - destruct E as (it' & E & Rt'). exists it'. split; [|by apply IH]. intros o M. rewrite <- E, <- iter_next_p_ok. eapply settle; [apply safe_iter_next| |exact M]. rewrite iter_next_p_ok. exact E.
Qed.
Lemma set_queries : (forall k r, av v k r -> r = Ok (rd_value rd v k) \/ (fl /\ failed r)) -> queries_as H (fun A o o' => o = o' \/ (fl /\ failed o)) an av rd v.
Proof.
  intros Avv. destruct (view_reader H rd v m) as (_ & _ & R1 & _ & R2 & _ & _ & _ & I1 & I2); [by exists ver|]. unfold queries_as. split_and!.
  - intros k o M. rewrite <- get_p_ok. unfold get_p, req_value_option in *. inversion M as [| |w x kk r o' Ar M']; subst. inversion M'; subst. by apply Avv.
  - intros k o M. rewrite <- get_with_proof_p_ok. by apply set_gwp.
  - intros o M. rewrite <- get_root_hash_p_ok. eapply settle; [apply safe_root_hash| |exact M]. rewrite get_root_hash_p_ok. exact R1.
  - intros o M. rewrite <- get_leaf_count_p_ok. eapply settle; [apply safe_leaf_count| |exact M]. rewrite get_leaf_count_p_ok. exact R2.
  - intros k o M. rewrite <- get_range_proof_p_ok. by apply set_range.
  - intros k o M. rewrite <- get_with_exclusion_proof_p_ok. by apply set_excl.
  - intros start o M. rewrite <- iter_new_p_ok. destruct (I1 start) as (it & E & _). eapply settle; [apply safe_iter_new| |exact M]. rewrite iter_new_p_ok. exact E.
  - intros i o M. rewrite <- iter_new_by_index_p_ok. destruct (I2 i) as (it & E & _). eapply settle; [apply safe_iter_index| |exact M]. rewrite iter_new_by_index_p_ok. exact E.
Qed.
End settle.
Lemma needs_stored rd M ver v nk : stored H rd M ver v -> needs ver M v nk -> rd_node rd nk = Some (node_at H M ver nk.2).
Proof.
  intros [Rt Ch] [->|(A & B & C & D)]; [exact Rt|]. destruct nk as [w q]. cbn [fst snd] in *. destruct (exists_last A) as (p & n & ->).
  rewrite parent_snoc in C. rewrite B. by apply Ch.
Qed.

(** Every query about [v] and every iterator answers as on the store at rest. *)
Theorem C63_interleaved_reads (ops : list op) st xs (v : version) : run H ops = Ok (st, xs) -> readable ops v ->
  queries_as H equal (some_node (passes H ops v)) (some_value (passes H ops v)) (store_reader st) v /\
  (forall o, may (some_node (passes H ops v)) (some_value (passes H ops v)) (get_root_hash_option_p H v) o -> o = get_root_hash_option H (store_reader st) v) /\
  (forall start, exists it, iter_new (store_reader st) v start = Ok it /\
    gives equal (some_node (passes H ops v)) (some_value (passes H ops v)) it (entries_from start (contents_at (history ops) v))) /\
  (forall i, exists it, iter_new_by_index (store_reader st) v i = Ok it /\
    gives equal (some_node (passes H ops v)) (some_value (passes H ops v)) it (drop i (entries (contents_at (history ops) v)))).
Proof.
  intros R Rv. destruct (passes_view H ops st xs v R Rv) as (x & Ex & PV). destruct (min_view ops st xs v R (proj2 Rv)) as (x' & Ex' & V). rewrite Ex in Ex'. injection Ex' as <-.
  set (ver := a_ver (vs_a x)) in *. set (m := contents_at (history ops) v) in *. set (rd := min_reader ops ver v) in *. set (an := some_node (passes H ops v)). set (av := some_value (passes H ops v)).
  assert (An : forall nk r, an nk r -> rd_node rd nk <> None -> r = Ok (rd_node rd nk)).
  { intros nk r (s & Ps & ->) N. cbn in N |- *. fold m in N |- *. case_decide as D; [|done]. destruct (PV s Ps) as (St & _). f_equal. exact (needs_stored _ _ _ _ _ St D). }
  assert (Av : forall w k r, av w k r -> (w < num_versions ops)%N -> r = Ok (rd_value rd w k)).
  { intros w k r (s & Ps & ->) L. cbn. rewrite decide_True by done. f_equal. apply any_values; [by eapply passes_is_any|done]. }
  assert (Av' : fair_v False rd av) by (intros w k r Ar N; left; apply (Av _ _ _ Ar); cbn in N; by case_decide).
  assert (Pst : passes H ops v st) by (apply (passes_between H ops v [] st xs); by rewrite app_nil_r).
  assert (RM : forall A (p : prog A), may an av p (runp (store_reader st) p)).
  { intros A p. apply runp_may; [intros nk; exists st; done|intros w k; exists st; done]. }
  pose proof (set_queries False an av rd ver v m V (fun nk r Ar N => or_introl (An nk r Ar N)) Av' (fun k r Ar => or_introl (Av v k r Ar (proj2 Rv)))) as (Q1 & Q2 & Q3 & Q4 & Q5 & Q6 & Q7 & Q8).
  assert (X : forall A (o o' : outcome A), o = o' \/ (False /\ failed o) -> o = o') by (intros A o o' [->|[[] _]]; done).
  assert (Gv : forall l it, gives (fun A o o' => o = o' \/ (False /\ failed o)) an av it l -> gives equal an av it l).
  { induction l as [|kx l IH]; intros it; cbn [gives]; [intros G o M; by apply X, G|]. intros (it' & G & G'). exists it'. split; [|by apply IH]. intros o M. by apply X, G. }
  unfold queries_as, equal. split; [split_and!|split; [|split]].
  - intros k o M. rewrite (X _ _ _ (Q1 k o M)). rewrite <- (get_p_ok (store_reader st)). symmetry. apply X, Q1, RM.
  - intros k o M. rewrite (X _ _ _ (Q2 k o M)). rewrite <- (get_with_proof_p_ok H (store_reader st)). symmetry. apply X, Q2, RM.
  - intros o M. rewrite (X _ _ _ (Q3 o M)). rewrite <- (get_root_hash_p_ok H (store_reader st)). symmetry. apply X, Q3, RM.
  - intros o M. rewrite (X _ _ _ (Q4 o M)). rewrite <- (get_leaf_count_p_ok (store_reader st)). symmetry. apply X, Q4, RM.
  - intros k o M. rewrite (X _ _ _ (Q5 k o M)). rewrite <- (get_range_proof_p_ok H (store_reader st)). symmetry. apply X, Q5, RM.
  - intros k o M. rewrite (X _ _ _ (Q6 k o M)). rewrite <- (get_with_exclusion_proof_p_ok H (store_reader st)). symmetry. apply X, Q6, RM.
  - intros k o M. rewrite (X _ _ _ (Q7 k o M)). rewrite <- (iter_new_p_ok (store_reader st)). symmetry. apply X, Q7, RM.
  - intros k o M. rewrite (X _ _ _ (Q8 k o M)). rewrite <- (iter_new_by_index_p_ok (store_reader st)). symmetry. apply X, Q8, RM.
  - assert (Y : forall o, may an av (get_root_hash_option_p H v) o -> o = get_root_hash_option H rd v).
    { intros o M. rewrite <- get_root_hash_option_p_ok. unfold get_root_hash_option_p in *. apply may_bind in M as (o1 & M1 & M2). rewrite runp_bind. unfold req_node_option in *. inversion M1 as [|nk' k' r o' Ar M'|]; subst. inversion M'; subst.
      assert (N : rd_node rd (nk_root v) <> None) by (destruct V as ([Rt _] & _); unfold nk_root; by rewrite Rt). apply An in Ar; [|done]. subst o1. cbn [runp] in *. inversion M2; subst. done. }
    intros o M. rewrite (Y o M). rewrite <- (get_root_hash_option_p_ok H (store_reader st)). symmetry. apply Y, RM.
  - intros start. destruct (iter_new_ok H m ver rd v (proj1 V) start) as (it & E & Rt). exists it. split.
    + rewrite <- (iter_new_p_ok (store_reader st)), <- E. apply X, Q7, RM.
    + apply Gv. by apply (set_rest False an av rd ver v m V (fun nk r Ar N => or_introl (An nk r Ar N)) Av').
  - intros i. destruct (iter_new_by_index_ok H m ver rd v (proj1 V) i) as (it & E & Rt). exists it. split.
    + rewrite <- (iter_new_by_index_p_ok (store_reader st)), <- E. apply X, Q8, RM.
    + apply Gv. by apply (set_rest False an av rd ver v m V (fun nk r Ar N => or_introl (An nk r Ar N)) Av').
Qed.

(** Any version ever committed, readable or not, and requests may fail: there are fixed answers that read as the contents
    of the version, and every query that succeeds gives one of them. *)
Theorem C64_interleaved_reads (ops : list op) st xs (v : version) : run H ops = Ok (st, xs) -> (v < num_versions ops)%N ->
  let m := contents_at (history ops) v in
  let an := some_node_or_fail (passes_any H ops) in
  let av := some_value_or_fail (passes_any H ops) in
  (exists rd, reader_reads_as H rd v m /\ queries_as H equal_or_fails an av rd v /\
    (forall start it, iter_new rd v start = Ok it -> gives equal_or_fails an av it (entries_from start m)) /\
    (forall i it, iter_new_by_index rd v i = Ok it -> gives equal_or_fails an av it (drop i (entries m)))) /\
  (forall h, may an av (get_root_hash_option_p H v) (Ok (Some h)) -> h = smt_root H m).
Proof.
  intros R Lv m an av. destruct (any_pview H ops st xs v R Lv) as (x & Ex & PV). destruct (min_view ops st xs v R Lv) as (x' & Ex' & V). rewrite Ex in Ex'. injection Ex' as <-.
  set (ver := a_ver (vs_a x)) in *. fold m in PV, V. set (rd := min_reader ops ver v) in *.
  assert (An : forall nk r, an nk r -> rd_node rd nk <> None -> r = Ok (rd_node rd nk) \/ (True /\ (failed r \/ r = Ok None))).
  { intros nk r [(s & Ps & ->)|F] N; [|by right; split; [|left]]. cbn in N |- *. fold m in N |- *. case_decide as D; [|done]. destruct (PV s Ps) as (Hn & _).
    destruct (st_nodes s !! nk) as [nd|] eqn:E; [left|by right; split; [|right]]. by rewrite (Hn nk nd D E). }
  assert (Av : forall w k r, av w k r -> (w < num_versions ops)%N -> r = Ok (rd_value rd w k) \/ (True /\ failed r)).
  { intros w k r [(s & Ps & ->)|F] L; [|by right; split]. left. cbn. rewrite decide_True by done. f_equal. by apply any_values. }
  assert (Av' : fair_v True rd av) by (intros w k r Ar N; destruct (Av _ _ _ Ar) as [?|[_ ?]]; [cbn in N; by case_decide|by left|by right; split; [|left]]).
  assert (X : forall A (o o' : outcome A), o = o' \/ (True /\ failed o) -> equal_or_fails A o o') by (intros A o o' [->|[_ F]]; [by left|by right]).
  assert (Gv : forall l it, gives (fun A o o' => o = o' \/ (True /\ failed o)) an av it l -> gives equal_or_fails an av it l).
  { induction l as [|kx l IH]; intros it; cbn [gives]; [intros G o M; by apply X, G|]. intros (it' & G & G'). exists it'. split; [|by apply IH]. intros o M. by apply X, G. }
  split.
  - exists rd. split_and!.
    + apply view_reader. by exists ver.
    + pose proof (set_queries True an av rd ver v m V An Av' (fun k r Ar => Av v k r Ar Lv)) as (Q1 & Q2 & Q3 & Q4 & Q5 & Q6 & Q7 & Q8). unfold queries_as. split_and!; intros; apply X; auto.
    + intros start it E. destruct (iter_new_ok H m ver rd v (proj1 V) start) as (it' & E' & Rt). rewrite E in E'. injection E' as <-. apply Gv. by apply (set_rest True an av rd ver v m V An Av').
    + intros i it E. destruct (iter_new_by_index_ok H m ver rd v (proj1 V) i) as (it' & E' & Rt). rewrite E in E'. injection E' as <-. apply Gv. by apply (set_rest True an av rd ver v m V An Av').
  - intros h M. destruct (view_reader H rd v m) as (_ & _ & _ & Ro & _); [by exists ver|]. unfold get_root_hash_option_p in M. apply may_bind in M as (o1 & M1 & M2). unfold req_node_option in M1. inversion M1 as [|nk' k' r o' Ar M'|]; subst. inversion M'; subst.
    assert (N : rd_node rd (nk_root v) <> None) by (destruct V as ([Rt _] & _); unfold nk_root; by rewrite Rt). unfold get_root_hash_option, get_root_node_option in Ro.
    destruct (An _ _ Ar N) as [->|[_ [F| ->]]].
    + destruct (rd_node rd (nk_root v)) as [nd|]; [|done]. apply may_done_inv in M2. pose proof (eq_trans M2 Ro) as Z. by injection Z.
    + destruct o1 as [a|e|]; [by destruct (F a)|done|done].
    + inversion M2.
Qed.

Lemma purging_values ops s w k : purging H ops s -> store_value s w k = contents_at (history ops) w !! k.
Proof.
  assert (G : forall more st' xs', Forall (fun o => is_purge o = true) more -> run H (ops ++ more) = Ok (st', xs') -> store_value st' w k = contents_at (history ops) w !! k).
  { intros more st' xs' Fm R'. apply run_inv in R' as [_ S]. pose proof (value_ok H _ _ _ _ _ w k S) as E. cbn in E. rewrite E, history_app, (purges_history _ Fm), app_nil_r. done. }
  intros [more st' xs' Fm Rm|more st' xs' l' s' Fm Rm P]; [by eapply G|]. apply purge_only_removes in P as [_ I2]. unfold store_value. rewrite I2. by eapply G.
Qed.
(** A commit that reads the store while it is being purged. *)
Theorem C71_interleaved_purge (ops : list op) st xs : run H ops = Ok (st, xs) ->
  commits_as H equal (some_node (purging H ops)) (some_value (purging H ops)) (store_reader st) (num_versions ops) /\
  commits_as H equal_or_fails (some_node_or_fail (purging H ops)) (some_value_or_fail (purging H ops)) (store_reader st) (num_versions ops).
Proof.
  intros R. destruct (purged_all H ops st xs R) as (st0 & xs0 & R0 & All). set (n := num_versions ops) in *.
  assert (Pst : purging H ops st) by (apply (purging_between H ops [] st xs); [constructor|by rewrite app_nil_r]).
  assert (N0 : num_versions (ops ++ [Purge (n - 1)%N]) = n) by (unfold n, num_versions; rewrite history_app; cbn; by rewrite app_nil_r).
  assert (P0 : purging H ops st0) by (eapply purging_between; [|exact R0]; by constructor).
  assert (Ex : forall s nk, purging H ops s -> rd_node (store_reader st0) nk <> None \/ late_root (n - 1) nk = true -> st_nodes s !! nk = rd_node (store_reader st0) nk).
  { intros s nk Ps Nk. cbn. destruct (st_nodes st0 !! nk) as [nd|] eqn:E; [by eapply All|]. destruct Nk as [Nk|Nk]; [cbn in Nk; congruence|]. apply bool_decide_eq_true_1 in Nk as [Np Nv].
    destruct (decide (n <= nk.1)%N) as [L|L].
    { destruct (st_nodes s !! nk) eqn:E'; [|done]. apply (purging_fresh H _ _ _ _ Ps) in E'. fold n in E'. lia. }
    exfalso. assert (Rd : readable (ops ++ [Purge (n - 1)%N]) (n - 1)%N) by (rewrite <- N0 at 2; apply latest_readable; rewrite N0; lia).
    destruct (run_view H _ _ _ _ R0 Rd) as (ver & [Rt _] & _). cbn in Rt. destruct nk as [w p]. cbn [fst snd] in *. subst p. replace w with (n - 1)%N in E by lia. congruence. }
  assert (Exv : forall s w k, purging H ops s -> store_value s w k = rd_value (store_reader st0) w k) by (intros s w k Ps; cbn; by rewrite (purging_values ops s), (purging_values ops st0)).
  assert (G : forall (fl : Prop) (an : nodekey -> outcome (option node) -> Prop) (av : version -> key -> outcome (option value) -> Prop),
    (forall nk r, an nk r -> some_node (purging H ops) nk r \/ (fl /\ failed r)) -> (forall w k r, av w k r -> some_value (purging H ops) w k r \/ (fl /\ failed r)) ->
    forall A (p : prog A) (Q : A -> Prop) y, safe (late_root (n - 1)) Q p -> runp (store_reader st0) p = Ok y -> forall o, may an av p o -> o = runp (store_reader st) p \/ (fl /\ failed o)).
  { intros fl an av Han Hav A p Q y S E o M.
    assert (Y : runp (store_reader st) p = Ok y).
    { eapply (safe_exact (store_reader st0) (some_node (purging H ops)) (some_value (purging H ops)) (late_root (n - 1))); [..|exact S|exact E|].
      - intros nk r (s & Ps & ->) Nk. f_equal. by apply Ex.
      - intros w k r (s & Ps & ->) _. f_equal. by apply Exv.
      - apply runp_may; [intros nk; exists st; done|intros w k; exists st; done]. }
    rewrite Y, <- E. eapply (settled_safe fl (store_reader st0) an av (late_root (n - 1))); [..|exact S|exact E|exact M].
    - intros nk r Ar Nk. destruct (Han _ _ Ar) as [(s & Ps & ->)|[Fl F]]; [left; f_equal; by apply Ex|right; split; [done|by left]].
    - intros w k r Ar _. destruct (Hav _ _ _ Ar) as [(s & Ps & ->)|[Fl F]]; [left; f_equal; by apply Exv|right; split; [done|by left]]. }
  pose proof R0 as R1. apply run_inv in R1 as [_ S0].
  assert (OK : forall sets, (exists y, put_value_sets H (store_reader st0) sets n = Ok y) /\ (exists y, put_value_sets_with_proof H (store_reader st0) sets n = Ok y)).
  { intros sets. destruct (commit_batch H _ _ _ _ _ sets S0) as (_ & b & pfss & P1 & P2 & _). fold (num_versions (ops ++ [Purge (n - 1)%N])) in P1, P2. rewrite N0 in P1, P2. split; eexists; [exact P1|exact P2]. }
  assert (OKb : forall ins, Forall (fun s => s <> []) ins -> exists y, batch_put_value_sets H (store_reader st0) ins None n = Ok y).
  { intros ins F. pose proof (C19_batch_equals_put H _ _ _ ins R0 F) as Eb. rewrite N0 in Eb. destruct (OK (insertions ins)) as [(y & E) _]. exists y. by rewrite Eb. }
  assert (C : forall (fl : Prop) (an : nodekey -> outcome (option node) -> Prop) (av : version -> key -> outcome (option value) -> Prop),
    (forall nk r, an nk r -> some_node (purging H ops) nk r \/ (fl /\ failed r)) -> (forall w k r, av w k r -> some_value (purging H ops) w k r \/ (fl /\ failed r)) ->
    commits_as H (fun A o o' => o = o' \/ (fl /\ failed o)) an av (store_reader st) n).
  { intros fl an av Han Hav. unfold commits_as. split_and!.
    - intros sets o M. rewrite <- put_value_sets_p_ok. destruct (OK sets) as [(y & E) _]. eapply (G fl an av Han Hav _ _ _ y); [apply safe_put_value_sets; lia|by rewrite put_value_sets_p_ok|exact M].
    - intros sets o M. rewrite <- put_value_sets_with_proof_p_ok. destruct (OK sets) as [_ (y & E)]. eapply (G fl an av Han Hav _ _ _ y); [apply safe_put_value_sets_wp; lia|by rewrite put_value_sets_with_proof_p_ok|exact M].
    - intros ins o F M. rewrite <- batch_put_value_sets_p_ok. destruct (OKb ins F) as (y & E). eapply (G fl an av Han Hav _ _ _ y); [apply safe_batch_put; lia|by rewrite batch_put_value_sets_p_ok|exact M]. }
  split.
  - destruct (C False (some_node (purging H ops)) (some_value (purging H ops))) as (C1 & C2 & C3); [by left|by left|]. unfold commits_as, equal.
    split_and!; [intros sets o M; destruct (C1 sets o M) as [?|[[] _]]; done|intros sets o M; destruct (C2 sets o M) as [?|[[] _]]; done|intros ins o F M; destruct (C3 ins o F M) as [?|[[] _]]; done].
  - destruct (C True (some_node_or_fail (purging H ops)) (some_value_or_fail (purging H ops))) as (C1 & C2 & C3); [intros nk r [?|F]; [by left|by right]|intros w k r [?|F]; [by left|by right]|]. unfold commits_as, equal_or_fails.
    split_and!; [intros sets o M; destruct (C1 sets o M) as [?|[_ ?]]|intros sets o M; destruct (C2 sets o M) as [?|[_ ?]]|intros ins o F M; destruct (C3 ins o F M) as [?|[_ ?]]]; first [by left|by right].
Qed.
End inter.

(** *** Concrete cases *)
(** every other request to each of two readers *)
Fixpoint alternate (r1 r2 : reader) {A} (p : prog A) : outcome A :=
  match p with
  | Done o => o
  | AskNode nk k => alternate r2 r1 (k (Ok (rd_node r1 nk)))
  | AskValue w x k => alternate r2 r1 (k (Ok (rd_value r1 w x)))
  end.
Lemma alternate_may an av {A} (p : prog A) : forall r1 r2, (forall nk, an nk (Ok (rd_node r1 nk)) /\ an nk (Ok (rd_node r2 nk))) -> (forall w k, av w k (Ok (rd_value r1 w k)) /\ av w k (Ok (rd_value r2 w k))) ->
  may an av p (alternate r1 r2 p).
Proof.
  induction p as [o|nk k IH|w x k IH]; intros r1 r2 An Av; cbn [alternate]; [constructor|..].
  - eapply may_node; [apply (proj1 (An _))|]. apply IH; [intros nk'; destruct (An nk'); by split|intros w k'; destruct (Av w k'); by split].
  - eapply may_value; [apply (proj1 (Av _ _))|]. apply IH; [intros nk'; destruct (An nk'); by split|intros w' k'; destruct (Av w' k'); by split].
Qed.
(** the first [i] requests answered by the reader, the next one not *)
Fixpoint fail_after (i : nat) (rd : reader) {A} (p : prog A) {struct p} : outcome A :=
  match p with
  | Done o => o
  | AskNode nk k => match i with O => runp rd (k (Err (EOther "disk"))) | S i' => fail_after i' rd (k (Ok (rd_node rd nk))) end
  | AskValue w x k => match i with O => runp rd (k (Err (EOther "disk"))) | S i' => fail_after i' rd (k (Ok (rd_value rd w x))) end
  end.
Lemma fail_after_may rd {A} (p : prog A) : forall i, may (flaky_node rd) (flaky_value rd) p (fail_after i rd p).
Proof.
  assert (RM : forall B (q : prog B), may (flaky_node rd) (flaky_value rd) q (runp rd q)) by (intros B q; apply runp_may; intros; by left).
  induction p as [o|nk k IH|w x k IH]; intros i; cbn [fail_after]; [constructor|..]; destruct i as [|i].
  - apply (may_node _ _ _ _ (Err (EOther "disk"))); [by right|apply RM].
  - eapply may_node; [by left|apply IH].
  - apply (may_value _ _ _ _ _ (Err (EOther "disk"))); [by right|apply RM].
  - eapply may_value; [by left|apply IH].
Qed.
Definition is_ok {A} (o : outcome A) : bool := match o with Ok _ => true | _ => false end.
Definition req_check : bool :=
  match run toy dmg_ops, run toy (dmg_ops ++ [Purge 1]) with
  | Ok (st, _), Ok (st1, _) =>
      (size (st_nodes st1) <? size (st_nodes st)) &&
      is_ok (alternate (store_reader st) (store_reader st1) (get_with_proof_p toy K80 1)) &&
      negb (is_ok (fail_after 2 (store_reader st) (get_with_proof_p toy K80 1))) && is_ok (fail_after 9 (store_reader st) (get_with_proof_p toy K80 1)) &&
      is_ok (alternate (store_reader st) (store_reader st1) (put_value_sets_with_proof_p toy [[(K00, Some vc)]; [(KC0, None); (K00, Some va)]] 2)) &&
      negb (is_ok (fail_after 3 (store_reader st) (put_value_sets_with_proof_p toy [[(K00, Some vc)]; [(KC0, None); (K00, Some va)]] 2)))
  | _, _ => false
  end.
(** Requests answered in turn by the store before and after a purge, and a failure in the middle of a query and of a commit. *)
Example demo_requests : req_check = true /\ exists st xs st1 xs1, run toy dmg_ops = Ok (st, xs) /\ run toy (dmg_ops ++ [Purge 1]) = Ok (st1, xs1) /\ readable dmg_ops 1 /\
  (forall A (p : prog A), may (some_node (passes toy dmg_ops 1)) (some_value (passes toy dmg_ops 1)) p (alternate (store_reader st) (store_reader st1) p)) /\
  (forall A (p : prog A), may (some_node (purging toy dmg_ops)) (some_value (purging toy dmg_ops)) p (alternate (store_reader st) (store_reader st1) p)) /\
  (forall A (p : prog A) i, may (flaky_node (store_reader st)) (flaky_value (store_reader st)) p (fail_after i (store_reader st) p)).
Proof.
  assert (E : req_check = true) by (vm_compute; reflexivity). split; [exact E|]. unfold req_check in E.
  destruct (run toy dmg_ops) as [[st xs]| |] eqn:R; [|discriminate E..]. destruct (run toy (dmg_ops ++ [Purge 1])) as [[st1 xs1]| |] eqn:R1; [|discriminate E..]. clear E.
  exists st, xs, st1, xs1. split; [reflexivity|]. split; [reflexivity|].
  assert (Rv : readable dmg_ops 1) by (split; vm_compute; congruence). assert (Rv1 : readable (dmg_ops ++ [Purge 1]) 1) by (split; vm_compute; congruence).
  split; [exact Rv|].
  assert (P : passes toy dmg_ops 1 st) by (apply (passes_between toy dmg_ops 1 [] st xs); rewrite app_nil_r; [exact R|exact Rv]).
  assert (P1 : passes toy dmg_ops 1 st1) by exact (passes_between toy dmg_ops 1 _ st1 xs1 R1 Rv1).
  assert (G : purging toy dmg_ops st) by (apply (purging_between toy dmg_ops [] st xs); [constructor|rewrite app_nil_r; exact R]).
  assert (G1 : purging toy dmg_ops st1) by (apply (purging_between toy dmg_ops [Purge 1] st1 xs1); [constructor; [reflexivity|constructor]|exact R1]).
  clear R R1. split; [|split].
  - intros A p. apply alternate_may; [intros nk; split; [exists st|exists st1]; (split; [assumption|reflexivity])|intros w k; split; [exists st|exists st1]; (split; [assumption|reflexivity])].
  - intros A p. apply alternate_may; [intros nk; split; [exists st|exists st1]; (split; [assumption|reflexivity])|intros w k; split; [exists st|exists st1]; (split; [assumption|reflexivity])].
  - intros A p i. apply fail_after_may.
Qed.
