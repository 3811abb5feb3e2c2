(** C63: readers that run concurrently with commits and purges.  The writers are serialised, as a node store requires; a
    reader may find every single node and value in a different state of the store, also in the middle of a write. *)
From Verif Require Import Base Spec SpecOrder SpecRange NodeType ProofDef TreeCache Tree Mock Driver Iterator Exclusion KeyFacts SmtFacts ProofFacts NodeFacts Canon CanonSib ReadFacts PutFacts InsertFacts PutTop VersionFacts ValueFacts StoreFacts DriverFacts DriverFacts2 LeafVersion KeyOrder OrderFacts IterFacts ExclFacts ThmProof ThmStore ThmIter ThmExcl ThmCrash Demo.
From Coq Require Import Lia.
Local Opaque Spec.smt.

(** *** Specification *)
Section conc.
Context (H : list byte -> bytes32).

(** The states the store passes through after the operations [ops], whatever is done next, as long as version [v] is kept:
    between two operations, in the middle of writing a batch, in the middle of a purge. *)
Inductive passes (ops : list op) (v : version) : store -> Prop :=
| passes_between more st xs : run H (ops ++ more) = Ok (st, xs) -> readable (ops ++ more) v -> passes ops v st
| passes_commit more st xs o x b st1 s : run H (ops ++ more) = Ok (st, xs) -> readable (ops ++ more) v ->
    step H st (num_versions (ops ++ more)) o = Ok (st1, x) -> out_batch x = Some b -> partly_written b st s -> passes ops v s
| passes_purge more st xs l s : run H (ops ++ more) = Ok (st, xs) -> readable ((ops ++ more) ++ [Purge l]) v -> partly_purged l st s -> passes ops v s.
(** A reader that answers each request for a node or a value from one of those states. *)
Definition concurrent (ops : list op) (v : version) (rd : reader) : Prop :=
  (forall nk, exists s, passes ops v s /\ rd_node rd nk = st_nodes s !! nk) /\
  (forall w k, exists s, passes ops v s /\ rd_value rd w k = store_value s w k).
(** The items an iterator gives, when each step may use another such reader. *)
Fixpoint yields_any (P : reader -> Prop) (it : jmt_iter) (l : list (key * value)) : Prop :=
  match l with
  | [] => forall rd, P rd -> iter_next rd it = Ok (None, it)
  | kx :: l' => forall rd, P rd -> exists it', iter_next rd it = Ok (Some kx, it') /\ yields_any P it' l'
  end.

(** *** Proof *)
Lemma run_vview ops st xs v : run H ops = Ok (st, xs) -> readable ops v -> exists x, (xrun H tb0 ops).1 !! N.to_nat v = Some x /\
  vview H (a_ver (vs_a x)) (store_reader st) v (contents_at (history ops) v).
Proof.
  intros R [L1 L2]. set (m := contents_at (history ops) v). apply run_inv in R as [_ S]. destruct (read_ok H _ _ _ _ _ v S L1 L2) as (x & E & Vx & Mx & St).
  exists x. split; [done|]. split; [done|]. split.
  - intros p n k y Mn EU. rewrite (value_ok H _ _ _ _ _ _ _ S).
    rewrite (run_leaf_value H ops x (N.to_nat v) k (p ++ [n]) (H y)); [..|done| | |].
    + rewrite N2Nat.id. fold m. assert (X : U (p ++ [n]) m !! k = Some y) by (rewrite EU; apply lookup_singleton). by apply U_lookup in X as [X _].
    + destruct p; discriminate.
    + rewrite parent_snoc, Mx, U_fm_size. done.
    + rewrite Mx, U_fm. fold m. rewrite EU. apply map_fmap_singleton.
  - intros k. by eapply value_ok.
Qed.
Lemma history_more ops more v : (v < num_versions ops)%N -> contents_at (history (ops ++ more)) v = contents_at (history ops) v.
Proof. intros L. unfold contents_at. rewrite history_app, take_app_le; [done|]. unfold num_versions in L. lia. Qed.
Lemma passes_view ops st xs v : run H ops = Ok (st, xs) -> readable ops v -> exists x, (xrun H tb0 ops).1 !! N.to_nat v = Some x /\ forall s, passes ops v s ->
  vview H (a_ver (vs_a x)) (store_reader s) v (contents_at (history ops) v).
Proof.
  intros R Rv. destruct (run_vview ops st xs v R Rv) as (x & Ex & _). exists x. split; [done|].
  assert (G : forall more st' xs', run H (ops ++ more) = Ok (st', xs') -> readable (ops ++ more) v ->
    vview H (a_ver (vs_a x)) (store_reader st') v (contents_at (history ops) v)).
  { intros more st' xs' R' Rv'. destruct (run_vview _ _ _ _ R' Rv') as (x' & Ex' & V).
    rewrite history_more in V by apply Rv. rewrite xrun_app in Ex'. destruct (xrun_prefix H more (xrun H tb0 ops)) as [l El]. rewrite El in Ex'.
    rewrite lookup_app_l in Ex' by (by eapply lookup_lt_Some). rewrite Ex in Ex'. injection Ex' as <-. exact V. }
  intros s [more st' xs' R' Rv'|more st' xs' o y b st1 s' R' Rv' E Eb P|more st' xs' l s' R' Rv' P].
  - by eapply G.
  - destruct (commit_keeps H _ _ _ _ _ _ _ _ R' E Eb P) as [I1 I2].
    eapply vview_mono; [by eapply G|exact (proj2 Rv')|exact I1|exact I2].
  - destruct (purge_keeps H _ _ _ _ _ R' P) as (st2 & xs2 & R2 & I1 & I2). rewrite <- app_assoc in *.
    eapply vview_mono; [by eapply G|exact (proj2 Rv')|exact I1|]. intros w k _. apply I2.
Qed.
Lemma concurrent_view ops st xs v : run H ops = Ok (st, xs) -> readable ops v -> exists x, (xrun H tb0 ops).1 !! N.to_nat v = Some x /\ forall rd, concurrent ops v rd ->
  vview H (a_ver (vs_a x)) rd v (contents_at (history ops) v).
Proof.
  intros R Rv. destruct (passes_view ops st xs v R Rv) as (x & Ex & V). exists x. split; [done|]. set (ver := a_ver (vs_a x)) in *. intros rd [Cn Cv]. split; [split|split].
  - destruct (Cn (v, [])) as (s & Ps & ->). by destruct (V s Ps) as [[? _] _].
  - intros p Hp n Ne. destruct (Cn (ver (p ++ [n]), p ++ [n])) as (s & Ps & ->). destruct (V s Ps) as [[_ K] _]. by apply K.
  - intros p n k y Mn E. destruct (Cv (ver (p ++ [n])) k) as (s & Ps & ->). destruct (V s Ps) as (_ & K & _). by eapply K.
  - intros k. destruct (Cv v k) as (s & Ps & ->). destruct (V s Ps) as (_ & _ & K). apply K.
Qed.

(** Every query about [v] answers as if nothing went on. *)
Theorem C63_concurrent_reads (ops : list op) st xs (v : version) (rd : reader) : run H ops = Ok (st, xs) -> readable ops v ->
  concurrent ops v rd -> reader_reads_as H rd v (contents_at (history ops) v).
Proof.
  intros R Rv C. apply view_reader. destruct (concurrent_view ops st xs v R Rv) as (x & _ & V). eexists. by apply V.
Qed.
(** The proof a reader gets is the very proof of the undisturbed store. *)
Theorem C63_concurrent_proof (ops : list op) st xs (v : version) (rd : reader) (k : key) : run H ops = Ok (st, xs) -> readable ops v ->
  concurrent ops v rd -> get_with_proof H rd k v = get_with_proof H (store_reader st) k v.
Proof.
  intros R Rv C. destruct (concurrent_view ops st xs v R Rv) as (xv & _ & V). set (ver := a_ver (vs_a xv)) in *. destruct (V rd C) as (St & _ & Hk).
  destruct (run_view H ops st xs v R Rv) as (ver' & St' & _ & Hk').
  destruct (get_with_proof_canon H rd _ ver k v St Hk) as (n & T & E). destruct (get_with_proof_canon H _ _ ver' k v St' Hk') as (n' & T' & E').
  rewrite E, E'. do 3 f_equal. by eapply term_unique.
Qed.
(** An iterator keeps working across any number of commits and purges between and during its steps. *)
Theorem C63_concurrent_iteration (ops : list op) st xs (v : version) (rd : reader) (start : key) : run H ops = Ok (st, xs) -> readable ops v ->
  concurrent ops v rd -> exists it, iter_new rd v start = Ok it /\ yields_any (concurrent ops v) it (entries_from start (contents_at (history ops) v)).
Proof.
  intros R Rv C. destruct (concurrent_view ops st xs v R Rv) as (xv & _ & V). set (ver := a_ver (vs_a xv)) in *. set (m := contents_at (history ops) v) in *.
  assert (Y : forall l it, it_rest H m ver v it l -> yields_any (concurrent ops v) it l).
  { induction l as [|kx l IH]; intros it Rt; cbn; intros rd' C'; destruct (V rd' C') as (St & Hv & Hk);
      assert (Hv0 : forall k x, m = {[ k := x ]} -> rd_value rd' v k = Some x) by (intros k x E; rewrite Hk, E; apply lookup_singleton);
      pose proof (iter_next_ok H m ver rd' v St Hv Hv0 it _ Rt) as E; cbn in E; [done|].
    destruct E as (it' & E & R'). exists it'. split; [done|]. by apply IH. }
  destruct (V rd C) as (St & Hv & Hk). destruct (iter_new_ok H m ver rd v St start) as (it & E & Rt). exists it. split; [done|]. by apply Y.
Qed.
Theorem C63_concurrent_iteration_by_index (ops : list op) st xs (v : version) (rd : reader) (i : nat) : run H ops = Ok (st, xs) -> readable ops v ->
  concurrent ops v rd -> exists it, iter_new_by_index rd v i = Ok it /\ yields_any (concurrent ops v) it (drop i (entries (contents_at (history ops) v))).
Proof.
  intros R Rv C. destruct (concurrent_view ops st xs v R Rv) as (xv & _ & V). set (ver := a_ver (vs_a xv)) in *. set (m := contents_at (history ops) v) in *.
  assert (Y : forall l it, it_rest H m ver v it l -> yields_any (concurrent ops v) it l).
  { induction l as [|kx l IH]; intros it Rt; cbn; intros rd' C'; destruct (V rd' C') as (St & Hv & Hk);
      assert (Hv0 : forall k x, m = {[ k := x ]} -> rd_value rd' v k = Some x) by (intros k x E; rewrite Hk, E; apply lookup_singleton);
      pose proof (iter_next_ok H m ver rd' v St Hv Hv0 it _ Rt) as E; cbn in E; [done|].
    destruct E as (it' & E & R'). exists it'. split; [done|]. by apply IH. }
  destruct (V rd C) as (St & Hv & Hk). destruct (iter_new_by_index_ok H m ver rd v St i) as (it & E & Rt). exists it. split; [done|]. by apply Y.
Qed.
End conc.

(** The hypotheses are met: on the demo history, a reader of version 4 that finds nodes of even versions in the store
    after a later commit and purge, and the rest in the store as it was. *)
Example concurrent_demo H st xs st2 xs2 : run H demo = Ok (st, xs) -> run H (demo ++ [Commit [[(K00, None)]]; Purge 4]) = Ok (st2, xs2) ->
  let rd := mkReader (fun nk => if N.even nk.1 then st_nodes st2 !! nk else st_nodes st !! nk) (store_value st2) None in
  concurrent H demo 4 rd /\ reader_reads_as H rd 4 {[ K00 := vb; K80 := va; KC0 := vc ]}.
Proof.
  intros R R2 rd.
  assert (Rv : readable demo 4) by apply demo_readable.
  assert (Rv2 : readable (demo ++ [Commit [[(K00, None)]]; Purge 4]) 4) by (split; vm_compute; congruence).
  assert (P1 : passes H demo 4 st) by (apply (passes_between H demo 4 [] st xs); rewrite app_nil_r; [exact R|exact Rv]).
  assert (P2 : passes H demo 4 st2) by exact (passes_between H demo 4 _ st2 xs2 R2 Rv2).
  assert (C : concurrent H demo 4 rd).
  { split; [|intros w k; exists st2; split; [exact P2|reflexivity]]. intros nk. cbn [rd rd_node]. destruct (N.even nk.1); [exists st2|exists st]; split; first [exact P1|exact P2|reflexivity]. }
  split; [exact C|]. rewrite <- (proj2 (proj2 (proj2 (proj2 demo_contents)))). exact (C63_concurrent_reads H demo st xs 4 rd R Rv C).
Qed.
