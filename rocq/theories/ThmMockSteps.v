(** C86: what the store keeps when a write ends with an error or a panic. *)
From Coq Require Import Strings.String.
From Verif Require ThmCost CommitMono RestoreTop ThmOver.
From Verif Require Import Base Spec SpecOrder SpecRange NodeType ProofDef TreeCache Tree Mock Codec Borsh Driver KeyFacts SmtFacts ProofFacts NodeFacts Canon CanonSib ReadFacts PutFacts InsertFacts PutTop VersionFacts ValueFacts StoreFacts DriverFacts DriverFacts2 LeafVersion KeyOrder OrderFacts IterFacts ExclFacts ThmRange ThmIter ThmExcl ThmProof ThmStore ThmStore2 ThmBorsh Demo Toy
  ThmCrash ThmPurged ThmVersions ThmContinue ThmFirst ThmOrigin BatchAbove MockSteps MockStepFacts.
From Coq Require Import Lia.
Local Opaque Spec.smt root_inputs ms_in.

Lemma purge_io_loop_ok l : forall s, io_result (purge_io_loop s l) = purge_loop s l.
Proof. unfold io_result. induction l as [|log l IH]; intros s; cbn [purge_io_loop purge_loop]; [done|]. destruct (st_nodes s !! log.2); [|done]. cbn [ensure_]. rewrite bind_Ok. apply IH. Qed.
Lemma purge_loop_perm l l' : l ≡ₚ l' -> forall s, purge_loop s l = purge_loop s l'.
Proof.
  induction 1 as [|x l l' P IH|x y l|l1 l2 l3 P1 IH1 P2 IH2]; intros s; cbn [purge_loop].
  - done.
  - by rewrite IH.
  - destruct (decide (x.2 = y.2)) as [E|N].
    + rewrite E. destruct (st_nodes s !! y.2) eqn:Ey; [|done]. cbn [ensure_ st_nodes]. rewrite !bind_Ok. cbn [st_nodes]. by rewrite lookup_delete.
    + destruct (st_nodes s !! x.2) eqn:Ex, (st_nodes s !! y.2) eqn:Ey; cbn [ensure_ st_nodes st_stale st_history st_overwrite]; rewrite ?bind_Ok; cbn [st_nodes st_stale st_history st_overwrite]; rewrite ?lookup_delete_ne, ?Ex, ?Ey by done; cbn [ensure_]; rewrite ?bind_Ok; try done.
      f_equal. f_equal; [apply delete_commute|set_solver].
  - by rewrite IH1.
Qed.
Theorem C86_purge_outcome (s : store) (l : version) : io_result (purge_io s l) = purge_stale_nodes s l.
Proof.
  unfold purge_io, purge_stale_nodes. rewrite purge_io_loop_ok. destruct (sorted_logs_ok (st_stale s)) as (So & ND & In). rewrite take_while_filter by done.
  apply purge_loop_perm. apply NoDup_Permutation; [by apply NoDup_filter|apply NoDup_elements|]. intros x. rewrite elem_of_list_filter, elem_of_elements, elem_of_filter, In. done.
Qed.
(** The three loops in one statement: the write is complete if it succeeds, and otherwise something of it is done. *)
Lemma put_nodes_partly b l : forall s, (forall nk nd, (nk, nd) ∈ l -> tb_nodes b !! nk = Some nd) -> partly_written b s (put_nodes_io s l).1.
Proof.
  induction l as [|[nk nd] l IH]; intros s Hl; cbn [put_nodes_io]; [constructor|].
  assert (P : partly_written b s (set_node s nk nd)) by (apply pw_node; [constructor|apply Hl; left]).
  assert (Q : partly_written b s (put_nodes_io (set_node s nk nd) l).1) by (eapply pw_trans; [exact P|]; apply IH; intros nk' nd' I; apply Hl; by right).
  destruct (st_overwrite s); [exact Q|]. destruct (st_nodes s !! nk); [exact P|exact Q].
Qed.
Lemma put_values_partly b l : forall s, (forall w k x, ((w, k), x) ∈ l -> tb_values b !! (w, k) = Some x) -> partly_written b s (put_values_io s l).1.
Proof.
  induction l as [|[[w k] x] l IH]; intros s Hl; cbn [put_values_io]; [constructor|].
  destruct (put_value_hist (st_history s) w k x) as [h| |] eqn:E; [|constructor..].
  eapply pw_trans; [eapply (pw_value b s s w k x h); [constructor|apply Hl; left|done]|]. apply IH. intros w' k' x' I. apply Hl. by right.
Qed.
Lemma put_stale_partly b l : forall s, (forall log, log ∈ l -> log ∈ tb_stale b) -> partly_written b s (put_stale_io s l).1.
Proof.
  induction l as [|log l IH]; intros s Hl; cbn [put_stale_io]; [constructor|].
  assert (P : partly_written b s (mkStore (st_nodes s) ({[ log ]} ∪ st_stale s) (st_history s) (st_overwrite s))) by (apply pw_stale; [constructor|apply Hl; left]).
  case_bool_decide; [exact P|]. eapply pw_trans; [exact P|]. apply IH. intros log' I. apply Hl. by right.
Qed.
Theorem C86_write_partial (s : store) (b : tree_batch) : partly_written b s (write_batch_io s b).1.
Proof.
  unfold write_batch_io, write_node_batch_io.
  assert (P1 : partly_written b s (put_nodes_io s (sorted_nodes (tb_nodes b))).1).
  { apply put_nodes_partly. intros nk nd I. destruct nk_lawful as [A B C]. apply (sorted_entries_ok nk_cmp A B C) in I. by apply elem_of_map_to_list in I. }
  destruct (put_nodes_io s (sorted_nodes (tb_nodes b))) as [s1 [[]| |]]; [|exact P1..]. cbn [fst] in P1.
  assert (P2 : partly_written b s1 (put_values_io s1 (sorted_values (tb_values b))).1) by (apply put_values_partly; intros w k x; apply elem_of_sorted_values).
  destruct (put_values_io s1 (sorted_values (tb_values b))) as [s2 [[]| |]]; [|by eapply pw_trans..]. cbn [fst] in P2.
  eapply pw_trans; [exact P1|]. eapply pw_trans; [exact P2|]. apply put_stale_partly. intros log. apply sorted_logs_ok.
Qed.
Lemma purge_loop_partly l todo : forall s s0, partly_purged l s0 s -> (forall log, log ∈ todo -> log ∈ st_stale s0 /\ (log.1 <= l)%N) -> partly_purged l s0 (purge_io_loop s todo).1.
Proof.
  induction todo as [|log todo IH]; intros s s0 P Hl; cbn [purge_io_loop]; [done|]. destruct (Hl log) as [A B]; [left|]. destruct (st_nodes s !! log.2); [|done].
  apply IH; [|intros log' I; apply Hl; by right].
  refine (pp_index l s0 (mkStore (delete log.2 (st_nodes s)) (st_stale s) (st_history s) (st_overwrite s)) log _ A B). by apply pp_node.
Qed.
Theorem C86_purge_partial (s : store) (l : version) : partly_purged l s (purge_io s l).1.
Proof.
  apply purge_loop_partly; [constructor|]. destruct (sorted_logs_ok (st_stale s)) as (So & _ & In). intros log I. rewrite take_while_filter in I by done. apply elem_of_list_filter in I as [I1 I2]. by apply In in I2.
Qed.

(** *** the same batch written again *)
Definition last_entry (h : gmap key (list (version * option value))) (k : key) : option (version * option value) := l ← h !! k; last l.
Lemma put_value_last h w k x h' : put_value_hist h w k x = Ok h' -> last_entry h' k = Some (w, x) /\ (forall k', k' <> k -> last_entry h' k' = last_entry h k') /\
  (forall w0 x0, last_entry h k = Some (w0, x0) -> (w0 <= w)%N).
Proof.
  unfold put_value_hist, last_entry. intros E.
  assert (X : forall l, h' = <[ k := l ]> h -> last l = Some (w, x) -> (h' !! k ≫= last = Some (w, x)) /\ (forall k', k' <> k -> h' !! k' ≫= last = h !! k' ≫= last)).
  { intros l -> L. split; [by rewrite lookup_insert|]. intros k' N. by rewrite lookup_insert_ne. }
  destruct (h !! k) as [l|] eqn:Ek; cbn [mbind option_bind].
  - destruct (rev l) as [|[lv y] r] eqn:Er.
    + injection E as <-. destruct (X (l ++ [(w, x)]) eq_refl) as [A B]; [apply last_snoc|]. split; [done|]. split; [done|]. intros w0 x0 L. apply (f_equal (@rev _)) in Er. rewrite rev_involutive in Er. by subst l.
    + assert (El : l = rev r ++ [(lv, y)]) by (rewrite <- (rev_involutive l), Er; done).
      destruct (N.compare_spec w lv) as [Ew|Ew|Ew]; [|done|]; injection E as <-.
      * subst lv. destruct (X (rev r ++ [(w, x)]) eq_refl) as [A B]; [apply last_snoc|]. split; [done|]. split; [done|]. intros w0 x0 L. rewrite El, last_snoc in L. injection L as <- <-. lia.
      * destruct (X (l ++ [(w, x)]) eq_refl) as [A B]; [apply last_snoc|]. split; [done|]. split; [done|]. intros w0 x0 L. rewrite El, last_snoc in L. injection L as <- <-. lia.
  - injection E as <-. destruct (X [(w, x)] eq_refl) as [A B]; [done|]. split; [done|]. split; [done|]. done.
Qed.
Lemma write_values_mono l : forall h h' k w x, write_values h l = Ok h' -> last_entry h k = Some (w, x) -> exists w' x', last_entry h' k = Some (w', x') /\ (w <= w')%N.
Proof.
  induction l as [|[[w0 k0] x0] l IH]; intros h h' k w x E L; cbn [write_values] in E; [injection E as <-; exists w, x; split; [done|lia]|].
  destruct (put_value_hist h w0 k0 x0) as [h1| |] eqn:E1; [|done..]. rewrite bind_Ok in E. apply put_value_last in E1 as (L1 & L2 & L3).
  destruct (decide (k = k0)) as [->|N].
  - apply L3 in L. destruct (IH _ _ _ _ _ E L1) as (w' & x' & M & ?). exists w', x'. split; [done|lia].
  - rewrite <- L2 in L by done. by eapply IH.
Qed.
Lemma write_values_last l : forall h h' k w x, write_values h l = Ok h' -> (w, k) ∉ l.*1 -> last_entry h k = Some (w, x) ->
  exists w' x', last_entry h' k = Some (w', x') /\ ((w < w')%N \/ w' = w /\ x' = x).
Proof.
  induction l as [|[[w0 k0] x0] l IH]; intros h h' k w x E Ni L; cbn [write_values] in E; [injection E as <-; exists w, x; split; [done|by right]|].
  destruct (put_value_hist h w0 k0 x0) as [h1| |] eqn:E1; [|done..]. rewrite bind_Ok in E. apply put_value_last in E1 as (L1 & L2 & L3). cbn in Ni. apply not_elem_of_cons in Ni as [N1 N2].
  destruct (decide (k = k0)) as [->|N].
  - apply L3 in L. destruct (write_values_mono _ _ _ _ _ _ E L1) as (w' & x' & M & ?). exists w', x'. split; [done|]. left. assert (w <> w0) by (by intros ->). lia.
  - rewrite <- L2 in L by done. by eapply IH.
Qed.
Lemma write_values_in l : forall h h' k w x, write_values h l = Ok h' -> NoDup l.*1 -> ((w, k), x) ∈ l ->
  exists w' x', last_entry h' k = Some (w', x') /\ ((w < w')%N \/ w' = w /\ x' = x).
Proof.
  induction l as [|[[w0 k0] x0] l IH]; intros h h' k w x E ND I; cbn [write_values] in E; [by apply elem_of_nil in I|].
  destruct (put_value_hist h w0 k0 x0) as [h1| |] eqn:E1; [|done..]. rewrite bind_Ok in E. cbn in ND. apply NoDup_cons in ND as [N ND].
  apply elem_of_cons in I as [[= -> -> ->]|I]; [|by eapply IH]. apply put_value_last in E1 as (L1 & _ & _). by eapply write_values_last.
Qed.
Lemma put_value_same h k w x : last_entry h k = Some (w, x) -> put_value_hist h w k x = Ok h.
Proof.
  unfold last_entry, put_value_hist. destruct (h !! k) as [l|] eqn:E; [|done]. cbn [mbind option_bind]. intros L. apply last_Some in L as [l' ->]. rewrite rev_app_distr. cbn [rev app]. rewrite N.compare_refl, rev_involutive, insert_id; done.
Qed.
Lemma put_value_less h k w w' x x' : last_entry h k = Some (w', x') -> (w < w')%N -> put_value_hist h w k x = Err (EOther "values must be pushed in order").
Proof.
  unfold last_entry, put_value_hist. destruct (h !! k) as [l|] eqn:E; [|done]. cbn [mbind option_bind]. intros L Lt. apply last_Some in L as [l' ->]. rewrite rev_app_distr. cbn [rev app]. apply N.compare_lt_iff in Lt. by rewrite Lt.
Qed.
Lemma put_values_again l : forall s, (forall w k x, ((w, k), x) ∈ l -> exists w' x', last_entry (st_history s) k = Some (w', x') /\ ((w < w')%N \/ w' = w /\ x' = x)) -> (put_values_io s l).1 = s.
Proof.
  induction l as [|[[w k] x] l IH]; intros s Hl; cbn [put_values_io]; [done|]. destruct (Hl w k x) as (w' & x' & L & [Lt|[-> ->]]); [left|by erewrite put_value_less|].
  rewrite put_value_same by done. assert (E : set_history s (st_history s) = s) by (by destruct s). rewrite E. apply IH. intros ??? I. apply Hl. by right.
Qed.
Lemma put_nodes_again l : forall s, (forall nk nd, (nk, nd) ∈ l -> st_nodes s !! nk = Some nd) -> (put_nodes_io s l).1 = s /\ (l <> [] -> st_overwrite s = false -> put_nodes_io s l = (s, Panic)).
Proof.
  induction l as [|[nk nd] l IH]; intros s Hl; cbn [put_nodes_io]; [done|].
  assert (E : set_node s nk nd = s) by (unfold set_node; rewrite insert_id by (apply Hl; left); by destruct s). rewrite E, (Hl nk nd) by left.
  destruct (st_overwrite s); [|done]. split; [|done]. apply IH. intros nk' nd' I. apply Hl. by right.
Qed.
Lemma put_stale_again l : forall s, (forall log, log ∈ l -> log ∈ st_stale s) -> (put_stale_io s l).1 = s.
Proof.
  intros s Hl. destruct l as [|log l]; [done|]. cbn [put_stale_io]. assert (I : log ∈ st_stale s) by (apply Hl; left). rewrite bool_decide_eq_true_2 by done. cbn [fst]. replace ({[ log ]} ∪ st_stale s) with (st_stale s) by set_solver. by destruct s.
Qed.
(** A batch that has been written is written again: nothing changes, and a store that forbids overwriting panics at the first node. *)
Theorem C86_written_again (s s' : store) (b : tree_batch) : write_tree_update_batch s b = Ok s' ->
  (write_batch_io s' b).1 = s' /\ (st_overwrite s' = false -> tb_nodes b <> ∅ -> write_batch_io s' b = (s', Panic)).
Proof.
  intros E. apply write_batch_inv in E as (h & Eh & ->). set (s' := mkStore _ _ _ _).
  assert (Nn : forall nk nd, (nk, nd) ∈ sorted_nodes (tb_nodes b) -> st_nodes s' !! nk = Some nd).
  { intros nk nd I. destruct nk_lawful as [A B C]. apply (sorted_entries_ok nk_cmp A B C) in I. apply elem_of_map_to_list in I. cbn. by apply lookup_union_Some_l. }
  destruct (put_nodes_again _ _ Nn) as [N1 N2]. unfold write_batch_io, write_node_batch_io. split.
  - destruct (put_nodes_io s' (sorted_nodes (tb_nodes b))) as [s1 [[]| |]]; cbn [fst] in N1; subst s1; [|done..].
    assert (V : (put_values_io s' (sorted_values (tb_values b))).1 = s').
    { apply put_values_again. intros w k x I. cbn. eapply write_values_in; [exact Eh| |exact I]. rewrite sorted_values_perm. apply NoDup_fst_map_to_list. }
    destruct (put_values_io s' (sorted_values (tb_values b))) as [s1 [[]| |]]; cbn [fst] in V; subst s1; [|done..].
    apply put_stale_again. intros log I. apply sorted_logs_ok in I. cbn. set_solver.
  - intros Ho Ne. rewrite N2; [done| |done]. intros Z. apply Ne. rewrite <- (sorted_nodes_map (tb_nodes b)), Z. done.
Qed.

Section kept.
Context (H : list byte -> bytes32).
(** the batches that a put of [sets] at version [v] returns *)
Definition staged (s : store) (sets : list value_set) (v : version) (b : tree_batch) : Prop :=
  (exists roots, put_value_sets H (store_reader s) sets v = Ok (roots, b)) \/ (exists rps, put_value_sets_with_proof H (store_reader s) sets v = Ok (rps, b)).

(** *** proof *)
Lemma okay_vview n f c s w : okay H n f c s -> (f <= w)%N -> (w < n)%N -> exists ver, vview H ver (store_reader s) w (c w) /\
  forall p i, 2 <= size (U p (H <$> c w)) -> U (p ++ [i]) (H <$> c w) <> ∅ -> (ver (p ++ [i]) <= w)%N.
Proof.
  intros (B & ops' & En & S & Ec & _) L1 L2. rewrite <- Ec by done. rewrite <- En in L2. cbn zeta in S.
  destruct (read_okB H B _ _ _ _ _ w S L1 L2) as (x & E & Vx & Mx & St).
  exists (a_ver (vs_a x)). split.
  - split; [done|]. split; [|intros k; by eapply value_okB].
    intros p i k y Mn EU. rewrite (value_okB H B _ _ _ _ _ _ _ S).
    pose proof (LeafVersion.run_leaf_value H ops' x (N.to_nat w) k (p ++ [i]) (H y)) as L. rewrite N2Nat.id in L. rewrite L; [..|done| | |].
    + assert (X : U (p ++ [i]) (contents_at (history ops') w) !! k = Some y) by (rewrite EU; apply lookup_singleton). by apply U_lookup in X as [X _].
    + destruct p; discriminate.
    + rewrite parent_snoc, Mx, U_fm_size. done.
    + rewrite Mx, U_fm, EU. apply map_fmap_singleton.
  - intros p i Mn Ne. rewrite <- Vx. apply elem_of_list_lookup_2 in E as Hx. destruct (sb_tr _ _ _ _ _ _ _ S) as [[Z _]|T]; [rewrite Z in Hx; by apply elem_of_nil in Hx|].
    apply (tr_back H _ _ T x _ Hx). rewrite Mx. split; [apply prefix_nil|]. split; [done|]. right. by rewrite parent_snoc.
Qed.
(** only the nodes of versions below [v], and the root of [w], matter for the others *)
Definition but_root (v : version) (r : reader) : reader := mkReader (fun nk => if decide (nk = (v, [])) then None else rd_node r nk) (rd_value r) None.
Definition low (v : version) (r : reader) : reader := mkReader (fun nk => if (nk.1 <? v)%N then rd_node r nk else None) (rd_value r) None.
Lemma okay_low n f c s w v : okay H n f c s -> (f <= w)%N -> (w < n)%N -> (w < v)%N -> view H (low v (store_reader s)) w (c w).
Proof.
  intros O L1 L2 L3. destruct (okay_vview n f c s w O L1 L2) as (ver & ((St & K) & Hv & Hk) & Hb). exists ver. split; [|split; [exact Hv|exact Hk]]. split.
  - cbn. by destruct (N.ltb_spec w v); [|lia].
  - intros p Hp i Ne. specialize (Hb p i Hp Ne). specialize (K p Hp i Ne). cbn [low rd_node]. cbn [fst gen_child]. unfold gen_child in *. cbn [fst] in *. destruct (N.ltb_spec (ver (p ++ [i])) v); [exact K|lia].
Qed.
Lemma okay_but_root n f c s w v : okay H n f c s -> (f <= w)%N -> (w < n)%N -> w <> v -> view H (but_root v (store_reader s)) w (c w).
Proof.
  intros O L1 L2 L3. destruct (okay_vview n f c s w O L1 L2) as (ver & ((St & K) & Hv & Hk) & Hb). exists ver. split; [|split; [exact Hv|exact Hk]]. split.
  - cbn. rewrite decide_False; [done|]. intros [= Z]. done.
  - intros p Hp i Ne. specialize (K p Hp i Ne). cbn [but_root rd_node]. rewrite decide_False; [exact K|]. unfold gen_child. intros [= _ Z]. by destruct p.
Qed.
Lemma staged_above s sets v b : (v = 0%N \/ rd_node (store_reader s) (v - 1, [])%N <> None) -> staged s sets v b ->
  (forall nk nd, tb_nodes b !! nk = Some nd -> (v <= nk.1)%N) /\ forall w k x, tb_values b !! (w, k) = Some x -> (v <= w)%N.
Proof. intros Hr [[roots E]|[rps E]]; [by eapply put_value_sets_above|by eapply put_value_sets_wp_above]. Qed.
Lemma okay_root n f c s w : okay H n f c s -> (f <= w)%N -> (w < n)%N -> st_nodes s !! (w, []) <> None.
Proof. intros O L1 L2. destruct (okay_vview n f c s w O L1 L2) as (ver & ((St & _) & _) & _). cbn in St. by rewrite St. Qed.
Lemma partly_low b s s' v : (forall nk nd, tb_nodes b !! nk = Some nd -> (v <= nk.1)%N) -> (forall w k x, tb_values b !! (w, k) = Some x -> (v <= w)%N) -> partly_written b s s' ->
  (forall nk, (nk.1 < v)%N -> st_nodes s' !! nk = st_nodes s !! nk) /\ (forall w k, (w < v)%N -> store_value s' w k = store_value s w k).
Proof.
  intros Hn Hv P. induction P as [|s' nk nd P [I1 I2] E|s' w k y h P [I1 I2] E Ph|s' log P [I1 I2] E]; [done|..].
  - split; [|exact I2]. cbn. intros nk' L. rewrite lookup_insert_ne; [by apply I1|]. intros <-. apply Hn in E. lia.
  - split; [exact I1|]. intros w' k' L. rewrite (put_value_older s' h w k y) by (first [done|apply Hv in E; lia]). by apply I2.
  - split; [exact I1|exact I2].
Qed.
Lemma older_kept n f c s v sets b s' w : okay H n f c s -> (f <= w)%N -> (w < v)%N -> (v <= n)%N -> staged s sets v b -> partly_written b s s' -> view H (store_reader s') w (c w).
Proof.
  intros O L1 L2 L3 Sg P. destruct (staged_above s sets v b) as [Hn Hv]; [|done|].
  { right. cbn. apply (okay_root n f c s (v - 1)%N O); lia. }
  destruct (partly_low b s s' v Hn Hv P) as [I1 I2]. assert (L4 : (w < n)%N) by lia.
  eapply (view_mono H (low v (store_reader s)) _ w _ v); [by eapply okay_low|done| |].
  - cbn. intros nk nd E. destruct (N.ltb_spec nk.1 v); [|done]. by rewrite I1.
  - intros w' k L. cbn. by apply I2.
Qed.
(** *** C86: commits at a version that may exist already.  Whatever becomes of the write, the versions before it stay as they were. *)
Theorem C86_older_kept n f c s v sets b w : in_use H n f c s -> staged s sets v b -> (f <= w)%N -> (w < v)%N -> (v <= n)%N ->
  reads_as H (write_batch_io s b).1 w (c w).
Proof. intros U Sg L1 L2 L3. apply view_reads. eapply (older_kept n f c s v sets b); [by apply in_use_okay|done..|apply C86_write_partial]. Qed.
(** The first node of the batch, in the order of the keys, is the root of the new version. *)
Lemma sorted_root nodes v nd : nodes !! (v, []) = Some nd -> (forall nk x, nodes !! nk = Some x -> (v <= nk.1)%N) -> exists l, sorted_nodes nodes = ((v, []), nd) :: l.
Proof.
  intros E Hn. destruct nk_lawful as [A B C]. destruct (sorted_entries_ok nk_cmp A B C nodes) as [So In]. fold (sorted_nodes nodes) in So, In.
  assert (I : ((v, []), nd) ∈ sorted_nodes nodes) by (by apply In, elem_of_map_to_list). destruct (sorted_nodes nodes) as [|[nk x] l]; [by apply elem_of_nil in I|].
  apply elem_of_cons in I as [[= <- <-]|I]; [by exists l|]. exfalso. apply StronglySorted_inv in So as [_ F]. rewrite Forall_forall in F. specialize (F _ I).
  change (nk_cmp nk (v, []) = Lt) in F. unfold nk_cmp, nodekey_cmp, pair_cmp, NibblePath.np_compare in F. cbn [fst snd key_raw] in F. assert (Ex : nodes !! nk = Some x) by (apply elem_of_map_to_list, In; left). apply Hn in Ex.
  destruct (N.compare_spec nk.1 v) as [Z|Z|Z]; [|lia|done]. destruct nk as [w p]. destruct p as [|? ?]; discriminate F.
Qed.
Theorem C86_recommit n f c s v sets b nd : in_use H n f c s -> staged s sets v b -> (v = 0%N \/ (f < v)%N) -> (f <= v)%N -> (v < n)%N -> tb_nodes b !! (v, []) = Some nd ->
  write_batch_io s b = (set_node s (v, []) nd, Panic) /\ forall w, (f <= w)%N -> (w < n)%N -> w <> v -> reads_as H (write_batch_io s b).1 w (c w).
Proof.
  intros U Sg Lv L1 L2 En. apply in_use_okay in U as O. destruct (staged_above s sets v b) as [Hn Hv]; [|done|].
  { destruct Lv as [->|Lv]; [by left|right]. cbn. apply (okay_root n f c s (v - 1)%N O); lia. }
  destruct (sorted_root _ _ _ En Hn) as (l & El). assert (Ho : st_overwrite s = false) by (destruct O as (B & ops' & _ & S & _); exact (sb_ov _ _ _ _ _ _ _ S)).
  pose proof (okay_root n f c s v O L1 L2) as Er. destruct (st_nodes s !! (v, [])) as [old|] eqn:Eold; [|done].
  assert (W : write_batch_io s b = (set_node s (v, []) nd, Panic)).
  { unfold write_batch_io, write_node_batch_io. rewrite El. cbn [put_nodes_io]. by rewrite Ho, Eold. }
  split; [exact W|]. intros w Lw1 Lw2 Nw. rewrite W. apply view_reads. cbn [fst].
  destruct (okay_but_root n f c s w v O Lw1 Lw2 Nw) as (ver & (St & K) & V). exists ver. split; [|exact V]. 
  assert (Q : forall nk x, rd_node (but_root v (store_reader s)) nk = Some x -> rd_node (store_reader (set_node s (v, []) nd)) nk = Some x).
  { cbn. intros nk x. destruct (decide (nk = (v, []))) as [->|Ne]; [done|]. by rewrite lookup_insert_ne. }
  split; [by apply Q|]. intros p Hp i Ne. apply Q. by apply K.
Qed.
(** *** a set of insertions stages the root of the new version *)
Lemma put_node_present c nk nd c' : cache_put_node c nk nd = Ok c' -> tc_nodes c' !! nk = Some nd.
Proof. unfold cache_put_node. destruct (tc_nodes c !! nk); [done|]. intros [= <-]. cbn. apply (lookup_insert (tc_nodes c)). Qed.
Lemma leaf_present nk full vh c nk' nd c' : create_leaf_node nk full vh c = Ok (nk', nd, c') -> tc_nodes c' !! nk' = Some nd.
Proof. unfold create_leaf_node. intros E. apply bind_inv' in E as (k & _ & E). cbn zeta in E. apply bind_inv' in E as (c1 & E1 & E). injection E as <- <- <-. by eapply put_node_present. Qed.
Lemma chain_present cnt : forall v path nk next c nk' i c', chain_loop H cnt v path nk next c = Ok (nk', i, c') -> tc_nodes c !! nk = Some (Internal next) -> tc_nodes c' !! nk' = Some (Internal i).
Proof.
  induction cnt as [|cnt IH]; intros v path nk next c nk' i c' E P; cbn [chain_loop] in E; [by injection E as <- <- <-|].
  apply bind_inv' in E as ([nib p'] & Ep & E). apply bind_inv' in E as (h & _ & E). apply bind_inv' in E as (i' & _ & E). apply bind_inv' in E as (c1 & E1 & E).
  eapply IH; [exact E|]. by eapply put_node_present.
Qed.
Definition placed (res : put_result) (c : cache) : Prop := exists nk nd, res = Updated nk nd /\ tc_nodes c !! nk = Some nd.
Lemma at_leaf_present nk lf v visited rem vh c wp res pf c' : insert_at_leaf_node H nk lf v visited rem (Some vh) c wp = Ok (res, pf, c') -> placed res c'.
Proof.
  unfold insert_at_leaf_node. cbn zeta. intros E. apply bind_inv' in E as (_ & _ & E).
  destruct (drop _ rem) as [|new_idx rem''] eqn:Er.
  - apply bind_inv' in E as (_ & _ & E). apply bind_inv' in E as (c1 & E1 & E). apply bind_inv' in E as ([[nk' n] c2] & E2 & E). apply leaf_present in E2. injection E as <- _ <-. by exists nk', n.
  - apply bind_inv' in E as (c1 & E1 & E). apply bind_inv' in E as (oi & _ & E). apply bind_inv' in E as (_ & _ & E). apply bind_inv' in E as (c2 & E2 & E).
    apply bind_inv' in E as ([[x nl] c3] & E3 & E). apply bind_inv' in E as (hn & _ & E). apply bind_inv' in E as (i & _ & E). apply bind_inv' in E as (c4 & E4 & E).
    apply bind_inv' in E as ([[nk' i'] c5] & E5 & E). injection E as <- _ <-. apply put_node_present in E4. apply chain_present in E5; [|done]. by exists nk', (Internal i').
Qed.
Lemma at_internal_present r nk i v n full vh c wp rec res pf c' :
  (forall ck c res pf c', rec ck c = Ok (res, pf, c') -> placed res c') ->
  insert_at_internal_node H r nk i v n full (Some vh) c wp rec = Ok (res, pf, c') -> placed res c'.
Proof.
  intros Hr E. unfold insert_at_internal_node in E. apply bind_inv' in E as ([[rs p1] c1] & E1 & E).
  assert (X : placed rs c1).
  { destruct (in_child i n).
    - apply bind_inv' in E1 as ([ck sibs] & _ & E1). apply bind_inv' in E1 as ([[r2 p2] c2] & E2 & E1). injection E1 as <- _ <-. by eapply Hr.
    - apply bind_inv' in E1 as (p0 & _ & E1). apply bind_inv' in E1 as ([[nk' nd] c2] & E2 & E1). injection E1 as <- _ <-. apply leaf_present in E2. by exists nk', nd. }
  destruct X as (unk & und & -> & _). cbn beta iota in E. apply bind_inv' in E as (ch & Ech & E). apply bind_inv' in Ech as (h & _ & Ech). apply bind_inv' in Ech as (t & _ & Ech). injection Ech as <-.
  apply bind_inv' in E as (c2 & E2 & E). destruct (children_iter (<[n:=_]> _)) as [|[cn ci] more] eqn:Ei; [by apply ThmCost.children_iter_insert in Ei|].
  destruct (_ && _); cbn zeta in E.
  - apply bind_inv' in E as (nd & _ & E); apply bind_inv' in E as (c3 & E3 & E); apply bind_inv' in E as (c4 & E4 & E); apply put_node_present in E4; injection E as <- _ <-. by eexists _, _.
  - apply bind_inv' in E as (nd & _ & E); apply bind_inv' in E as (c4 & E4 & E); apply put_node_present in E4; injection E as <- _ <-. by eexists _, _.
Qed.
Local Ltac null_case E0 :=
  destruct (negb _); [done|]; let c1 := fresh "c1" in let E1 := fresh "E1" in apply bind_inv' in E0 as (c1 & E1 & E0);
  let E2 := fresh "E2" in apply bind_inv' in E0 as ([[? ?] ?] & E2 & E0); apply leaf_present in E2; injection E0 as <- _ <-; by eexists _, _.
Lemma insert_present r rem : forall visited nk v vh c wp res pf c', insert_at H r rem visited nk v (Some vh) c wp = Ok (res, pf, c') -> placed res c'.
Proof.
  induction rem as [|n rem IH]; intros visited nk v vh c wp res pf c' E; cbn [insert_at] in E.
  - destruct (cache_node r c nk) as [[|i|lf]|]; [null_case E|done|by apply at_leaf_present in E|null_case E].
  - destruct (cache_node r c nk) as [[|i|lf]|]; [null_case E| |by apply at_leaf_present in E|null_case E].
    apply at_internal_present in E; [done|]. intros ck c0 rs p c1 E0. by eapply IH.
Qed.
Lemma put_present r k vh v c wp pf c' : (tc_root c).2 = [] -> put H r k (Some vh) v c wp = Ok (pf, c') -> tc_root c' = (v, []) /\ is_Some (tc_nodes c' !! (v, [])).
Proof.
  intros R E. unfold put in E. apply bind_inv' in E as ([[res p] c1] & E1 & E). pose proof (CommitMono.insert_root H _ _ _ _ _ _ _ _ _ _ _ E1) as [_ Y].
  apply insert_present in E1 as (nk & nd & -> & P). injection E as _ <-. cbn. pose proof (Y eq_refl R nk nd eq_refl) as ->. by rewrite P.
Qed.
Lemma put_set_present r v kvs : forall c c', (tc_root c).2 = [] -> kvs <> [] -> (forall k x, (k, x) ∈ kvs -> x <> None) -> put_set H r v kvs c = Ok c' -> tc_root c' = (v, []) /\ is_Some (tc_nodes c' !! (v, [])).
Proof.
  induction kvs as [|[k x] kvs IH]; intros c c' R Ne Hs E; [done|]. cbn [put_set] in E. cbn zeta in E. apply bind_inv' in E as ([pf c1] & E1 & E). cbn beta iota in E.
  destruct x as [x|]; [|exfalso; by eapply Hs; [left|]]. apply put_present in E1 as [R1 P1]; [|done]. destruct kvs as [|kx kvs]; [cbn [put_set] in E; by injection E as <-|].
  eapply IH; [by rewrite R1|done| |exact E]. intros k' x' I. apply (Hs k'). by right.
Qed.
Lemma freeze_present r c c' v : tc_root c = (v, []) -> is_Some (tc_nodes c !! (v, [])) -> cache_freeze H r c = Ok c' ->
  exists nd rh, fz_nodes c' !! (v, []) = Some nd /\ node_hash H nd = Ok rh /\ fz_roots c' = fz_roots c ++ [rh].
Proof.
  intros R [nd P] E. unfold cache_freeze in E. cbn zeta in E. unfold cache_node in E. rewrite R, P, bind_Ok in E. cbn beta iota in E. apply bind_inv' in E as (rh & Eh & E).
  assert (Z : bool_decide (tc_nodes c = ∅) = false) by (apply bool_decide_eq_false_2; intros Z; rewrite Z, lookup_empty in P; done).
  rewrite Z, andb_false_r, andb_false_l, bind_Ok in E. injection E as <-. cbn. exists nd, rh. split; [by apply lookup_union_Some_l|done].
Qed.
(** A set of insertions at a version that exists: the write panics, having replaced the root of that version, and nothing else. *)
Theorem C86_recommit_damage n f c s v (set : value_set) root b : in_use H n f c s -> (v = 0%N \/ (f < v)%N) -> (f <= v)%N -> (v < n)%N ->
  set <> [] -> (forall k x, (k, x) ∈ set -> x <> None) -> put_value_set H (store_reader s) set v = Ok (root, b) ->
  exists s', write_batch_io s b = (s', Panic) /\ get_root_hash H (store_reader s') v = Ok root /\ forall w, (f <= w)%N -> (w < n)%N -> w <> v -> reads_as H s' w (c w).
Proof.
  intros U Lv L1 L2 Ne Hs E. unfold put_value_set in E. apply bind_inv' in E as ([roots b'] & E & Eb).
  destruct roots as [|r0 [|? ?]]; [done| |done]. injection Eb as -> ->.
  assert (X : exists nd, tb_nodes b !! (v, []) = Some nd /\ node_hash H nd = Ok root).
  { pose proof E as E0. unfold put_value_sets in E. cbn [put_sets] in E. apply bind_inv' in E as (c1 & E & Ei). apply bind_inv' in E as (c2 & E2 & E). apply bind_inv' in E as (c3 & E3 & E). injection E as <-. injection Ei as Er <-. cbn.
    apply put_set_present in E2 as [R2 P2]; [| |done|done].
    - apply (freeze_present _ _ _ v R2 P2) in E3 as (nd & rh & En & Eh & Ef). exists nd. split; [done|]. rewrite Ef in Er. apply (f_equal last) in Er. rewrite last_snoc in Er. by injection Er as <-.
    - unfold cache_new. destruct (v =? 0)%N; [|done]. by destruct (rd_node _ _). }
  destruct X as (nd & En & Eh). destruct (C86_recommit n f c s v [set] b nd U) as [W R]; [left; eauto|done..|].
  exists (set_node s (v, []) nd). split; [exact W|]. rewrite W in R. split; [|exact R]. unfold get_root_hash, get_root_node_option, nk_root, ok_or. cbn. rewrite (lookup_insert (st_nodes s)). rewrite bind_Ok. exact Eh.
Qed.
End kept.

From Verif Require Import Restore RestoreDriver.
(** *** Restores: a refused chunk.  A restore object at version [v], after any calls with any outcomes and any crashes (a new
    object is then made on the store), over a store that holds no value of a version after [v]. *)
Definition no_later (v : version) (s : store) : Prop := forall k l a, st_history s !! k = Some l -> a ∈ l -> (a.1 <= v)%N.
Inductive restoring (H : list byte -> bytes32) (ovf : bool) (v : version) : rstate -> Prop :=
| res_new s root rs : no_later v s -> restore_new H s v root = Ok rs -> restoring H ovf v rs
| res_overwrite s root : no_later v s -> restoring H ovf v (new_overwrite s v root)
| res_chunk rs ch p rs' e : restoring H ovf v rs -> add_chunk H ovf rs ch p = Ok (rs', e) -> restoring H ovf v rs'
| res_crash rs root rs' : restoring H ovf v rs -> restore_new H (rs_store rs) v root = Ok rs' -> restoring H ovf v rs'.
Definition ready (v : version) (rs : rstate) : Prop := rs_version rs = v /\ ThmOver.at_v v (rs_fvalues rs) /\ no_later v (rs_store rs).
Lemma no_later_put v s k x h : no_later v s -> put_value_hist (st_history s) v k x = Ok h -> no_later v (set_history s h).
Proof.
  intros N E k' l a. cbn. revert E. unfold put_value_hist. destruct (st_history s !! k) as [l0|] eqn:Ek.
  - destruct (rev l0) as [|[lv y] r] eqn:Er; [|destruct (N.compare_spec v lv) as [Ew|Ew|Ew]; [|done|]]; intros [= <-]; (destruct (decide (k' = k)) as [->|Nk]; [rewrite lookup_insert; intros [= <-] I|rewrite lookup_insert_ne by done; apply N]).
    + apply elem_of_app in I as [I|I%elem_of_list_singleton]; [by eapply N|by subst a; cbn; lia].
    + assert (El : l0 = rev r ++ [(lv, y)]) by (rewrite <- (rev_involutive l0), Er; done).
      apply elem_of_app in I as [I|I%elem_of_list_singleton]; [eapply N; [done|]; rewrite El; apply elem_of_app; by left|by subst a; cbn; lia].
    + apply elem_of_app in I as [I|I%elem_of_list_singleton]; [by eapply N|by subst a; cbn; lia].
  - intros [= <-]. destruct (decide (k' = k)) as [->|Nk]; [rewrite lookup_insert; intros [= <-] ->%elem_of_list_singleton; cbn; lia|rewrite lookup_insert_ne by done; apply N].
Qed.
Lemma no_later_ok v s k x : no_later v s -> exists h, put_value_hist (st_history s) v k x = Ok h.
Proof.
  intros N. unfold put_value_hist. destruct (st_history s !! k) as [l0|] eqn:Ek; [|eauto]. destruct (rev l0) as [|[lv y] r] eqn:Er; [eauto|].
  assert (El : l0 = rev r ++ [(lv, y)]) by (rewrite <- (rev_involutive l0), Er; done).
  assert ((lv <= v)%N) by (apply (N k l0 (lv, y)); [done|]; rewrite El; apply elem_of_app; right; by apply elem_of_list_singleton).
  destruct (N.compare_spec v lv); [eauto|lia|eauto].
Qed.
Lemma no_later_values v l : forall s, no_later v s -> (forall e, e ∈ l -> e.1.1 = v) -> exists h, write_values (st_history s) l = Ok h /\ no_later v (set_history s h).
Proof.
  induction l as [|[[w k] x] l IH]; intros s N Ev; cbn [write_values]; [exists (st_history s); split; [done|]; by destruct s|]. assert (w = v) as -> by (apply (Ev ((w, k), x)); by left).
  destruct (no_later_ok v s k x N) as [h Eh]. rewrite Eh, bind_Ok. destruct (IH (set_history s h)) as (h' & E' & N'); [by eapply no_later_put|intros e He; apply Ev; by right|]. exists h'. by split.
Qed.
Section restoring.
Context (H : list byte -> bytes32) (ovf : bool) (v : version).
Lemma ready_push_key rs k x rs' : ready v rs -> push_key H rs k x = Ok rs' -> ready v rs' /\ rs_store rs' = rs_store rs.
Proof.
  intros (Fv & Fa & Fn). unfold push_key. match goal with |- context [add_one H ?r k _] => set (r0 := r) end.
  destruct (add_one H r0 k (value_hash H x)) as [r1| |] eqn:E; [rewrite bind_Ok|done|done]. intros [= <-]. unfold add_one in E. pose proof (ThmOver.sim_loop _ _ _ _ _ _ _ E) as [(K1 & K2 & K3) _]. clear E.
  unfold ready. cbn [rs_version rs_store rs_fvalues]. rewrite K1, K2, K3. cbn [r0 rs_version rs_store rs_fvalues]. split; [|done]. split; [done|]. split; [|done].
  intros w j. rewrite Fv. destruct (decide ((v, k) = (w, j))) as [[= -> ->]|Ne]; [done|]. rewrite lookup_insert_ne by done. apply Fa.
Qed.
Lemma ready_push ch : forall rs rs' e, ready v rs -> push_chunk H rs ch = Ok (rs', e) -> ready v rs' /\ rs_store rs' = rs_store rs.
Proof.
  induction ch as [|[k x] ch IH]; intros rs rs' e F; cbn [push_chunk]; [intros [= <- <-]; done|]. destruct (in_order rs k); [|intros [= <- <-]; done].
  destruct (push_key H rs k x) as [r1| |] eqn:E; [rewrite bind_Ok|done|done]. apply ready_push_key in E as [F1 E1]; [|done]. intros E. apply IH in E as [F2 E2]; [|done]. split; [done|congruence].
Qed.
Lemma ready_flush rs rs' e : ready v rs -> flush rs = Ok (rs', e) -> e = None /\ ready v rs'.
Proof.
  intros (Fv & Fa & Fn). rewrite RestoreTop.flush_eq. destruct (no_later_values v (sorted_values (rs_fvalues rs)) (rs_store rs)) as (h & Eh & Nh); [done|intros [[w k] x] Hx%elem_of_sorted_values; by apply (Fa w k)|].
  unfold write_node_batch. destruct (assert_ _) as [[]| |] eqn:Ea; [rewrite bind_Ok|by unfold assert_ in Ea; destruct (_ || _)|done]. rewrite Eh, bind_Ok. intros [= <- <-]. split; [done|]. split; [done|]. split.
  - intros w k. cbn. rewrite lookup_empty. by intros [? ?].
  - exact Nh.
Qed.
Lemma ready_new s root rs : no_later v s -> restore_new H s v root = Ok rs -> ready v rs.
Proof.
  intros N. assert (A : ThmOver.at_v v ∅) by (intros w k; rewrite lookup_empty; by intros [? ?]).
  unfold restore_new. destruct (store_rightmost s) as [[nk l]|]; [|by intros [= <-]]. destruct (recover_partial_nodes H s v nk) as [ps| |]; [rewrite bind_Ok|done|done]. by intros [= <-].
Qed.
Lemma ready_add rs ch p rs' e : ready v rs -> add_chunk H ovf rs ch p = Ok (rs', e) -> ready v rs' /\ (e <> None -> rs_store rs' = rs_store rs).
Proof.
  intros F. unfold add_chunk. destruct ch as [|c0 ch]; [by intros [= <- _]|]. destruct (push_chunk H rs (c0 :: ch)) as [[rs1 e1]| |] eqn:E; [rewrite bind_Ok|done|done].
  apply ready_push in E as [F1 E1]; [|done]. destruct e1; [by intros [= <- _]|]. destruct (rverify H ovf rs1 p) as [[]| |]; [|by intros [= <- _]|done]. intros E. apply ready_flush in E as [-> F2]; [|done]. by split.
Qed.
Lemma restoring_ready rs : restoring H ovf v rs -> ready v rs.
Proof.
  induction 1 as [s root rs N E|s root N|rs ch p rs' e R IH E|rs root rs' R IH E].
  - by eapply ready_new.
  - split; [done|]. split; [|done]. intros w k. cbn. rewrite lookup_empty. by intros [? ?].
  - by eapply ready_add.
  - eapply ready_new; [apply IH|exact E].
Qed.
(** C35: a chunk that is refused writes nothing. *)
Theorem C35_rejected_writes_nothing rs (ch : list (key * value)) p rs' e :
  restoring H ovf v rs -> add_chunk H ovf rs ch p = Ok (rs', Some e) -> rs_store rs' = rs_store rs.
Proof. intros R%restoring_ready E. apply ready_add in E as [_ X]; [|done]. by apply X. Qed.
End restoring.

(** Without the restriction on the versions in the store, a chunk that is refused may leave nodes behind: the key K00 was written
    at version 0 and deleted at version 1, and the tree of version 0 is gone; a chunk of a restore of version 0 with the right proof is
    refused by the store (K00 has a later value), but its nodes are there. *)
Definition gone_ops : list op := [Commit [ [(K00, Some va)] ]; Commit [ [(K00, None)] ]; Purge 1].
Definition full_ops : list op := [Commit [ [(K00, Some va); (K80, Some vb); (KC0, Some vc)] ]].
Definition full_map : gmap key value := {[ K00 := va; K80 := vb; KC0 := vc ]}.
Definition refusal : option (store * rstate * error) :=
  match run toy gone_ops, run toy full_ops with
  | Ok (s, _), Ok (src, _) =>
      match restore_new toy s 0 (smt_root toy full_map), get_range_proof toy (store_reader src) KC0 0 with
      | Ok rs, Ok p => match add_chunk toy true rs [(K00, va); (K80, vb); (KC0, vc)] p with Ok (rs', Some e) => Some (s, rs', e) | _ => None end
      | _, _ => None
      end
  | _, _ => None
  end.
Theorem C86_refused_chunk_writes : exists s rs' e, refusal = Some (s, rs', e) /\ e = EOther "values must be pushed in order" /\
  st_nodes s !! (0%N, [nib_of_N 0]) = None /\ st_nodes (rs_store rs') !! (0%N, [nib_of_N 0]) <> None /\ rs_store rs' <> s.
Proof.
  assert (E : match refusal with
              | Some (s, rs', EOther msg) => String.eqb msg "values must be pushed in order" && match st_nodes s !! (0%N, [nib_of_N 0]), st_nodes (rs_store rs') !! (0%N, [nib_of_N 0]) with None, Some _ => true | _, _ => false end
              | _ => false end = true) by (vm_compute; reflexivity).
  destruct refusal as [[[s rs'] [w| | |msg]]|]; [discriminate E..| |discriminate E]. apply andb_true_iff in E as [E1 E2]. apply String.eqb_eq in E1.
  destruct (st_nodes s !! (0%N, [nib_of_N 0])) eqn:N1; [discriminate E2|]. destruct (st_nodes (rs_store rs') !! (0%N, [nib_of_N 0])) eqn:N2; [|discriminate E2].
  exists s, rs', (EOther msg). split; [reflexivity|]. split; [by rewrite E1|]. split; [exact N1|]. split; [rewrite N2; discriminate|]. intros Z. rewrite Z, N1 in N2. discriminate N2.
Qed.

(** *** Concrete cases.  A commit of one more insertion at version 3 of the demo store (which has versions 2 to 4): the batch is computed, the
    write panics; afterwards version 3 reports the new root, and versions 2 and 4 read as before. *)
Theorem demo_recommit : exists st xs root b s', run toy demo = Ok (st, xs) /\ in_use toy 5 2 (later 0 (fun _ => ∅) demo) st /\
  put_value_set toy (store_reader st) [(K00, Some vc)] 3 = Ok (root, b) /\ write_batch_io st b = (s', Panic) /\
  get_root_hash toy (store_reader s') 3 = Ok root /\ reads_as toy s' 2 (later 0 (fun _ => ∅) demo 2%N) /\ reads_as toy s' 4 demo_map /\
  get_root_hash toy (store_reader st) 3 <> Ok root.
Proof.
  destruct (C82_goes_on toy 0 0 _ _ demo (in_use_empty toy)) as (st & xs & R & U). assert (E5 : (0 + num_versions demo)%N = 5%N) by reflexivity. assert (Ef : (fold_left floor_step demo (0, 0)%N).1 = 2%N) by reflexivity. rewrite E5, Ef in U.
  set (c := later 0 (fun _ => ∅) demo) in *. assert (Ec : c 4%N = demo_map) by (apply (bool_decide_eq_true_1 _); vm_compute; reflexivity).
  assert (X : match run toy demo with
              | Ok (st, _) => match put_value_set toy (store_reader st) [(K00, Some vc)] 3, get_root_hash toy (store_reader st) 3 with Ok (root, b), Ok r => bool_decide (r <> root) | _, _ => false end
              | _ => false end = true) by (vm_compute; reflexivity).
  assert (R0 : run toy demo = Ok (st, xs)) by exact R. rewrite R0 in X. destruct (put_value_set toy (store_reader st) [(K00, Some vc)] 3) as [[root b]| |] eqn:P; [|discriminate X..].
  destruct (get_root_hash toy (store_reader st) 3) as [r| |] eqn:G; [|discriminate X..]. apply bool_decide_eq_true in X.
  destruct (C86_recommit_damage toy 5 2 c st 3 [(K00, Some vc)] root b U) as (s' & W & G' & K); [right; lia|lia|lia|discriminate| |exact P|].
  { intros k x I. apply elem_of_list_singleton in I. injection I as -> ->. discriminate. }
  exists st, xs, root, b, s'. split; [exact R|]. split; [exact U|]. split; [exact P|]. split; [exact W|]. split; [exact G'|]. split; [apply K; lia|]. split; [rewrite <- Ec; apply K; lia|].
  rewrite G. intros Z. apply X. by injection Z.
Qed.
