(** C69: restoring a tree beside the versions a store already holds.  [new_overwrite] (restore.rs:197-212) does; [new] (restore.rs:163-195)
    does not. *)
From Coq Require Import Strings.String.
From Verif Require ThmAppendOk.
From Verif Require Import Base Spec SpecOrder SpecRange NodeType ProofDef TreeCache Tree Mock Driver Iterator Exclusion Restore KeyFacts SmtFacts ProofFacts NodeFacts Canon CanonSib ReadFacts PutFacts InsertFacts PutTop VersionFacts ValueFacts StoreFacts DriverFacts DriverFacts2 LeafVersion KeyOrder OrderFacts IterFacts ExclFacts ThmProof ThmStore ThmStore2 ThmRange ThmIter ThmExcl Demo Toy
  RangeFacts RestoreFacts RestoreFacts2 RestoreVerify RestoreTop RestoreRec RestoreDriver RestoreRun ThmRestore ThmCrash ThmConc ThmPurged ThmContinue.
From Coq Require Import Lia.
Local Opaque Spec.smt root_inputs ms_in.

(** *** the restore does not look at its store *)
Definition sv (s : store) (vals : gmap (version * key) (option value)) (rs : rstate) : rstate :=
  RS s (rs_version rs) (rs_partial rs) (rs_fnodes rs) vals (rs_prev rs) (rs_num rs) (rs_root rs).
Definition kept (rs rs' : rstate) : Prop := rs_store rs' = rs_store rs /\ rs_fvalues rs' = rs_fvalues rs /\ rs_version rs' = rs_version rs.
Section sim.
Context (H : list byte -> bytes32).
Lemma kept_trans a b c : kept a b -> kept b c -> kept a c.
Proof. unfold kept. intros (-> & -> & ->) (-> & -> & ->). done. Qed.
Ltac go := repeat (first [rewrite bind_Ok | progress cbn [unwrap assert_] | match goal with E : ?a = _ |- context [?a] => rewrite E end]); reflexivity.
Lemma sim_prev rs rs' : freeze_previous_leaf rs = Ok rs' -> kept rs rs' /\ forall s vals, freeze_previous_leaf (sv s vals rs) = Ok (sv s vals rs').
Proof.
  unfold freeze_previous_leaf. cbn [sv rs_num rs_partial rs_version]. destruct (rs_num rs =? 0) eqn:E0; [by intros [= <-]|]. destruct (last (rs_partial rs)) as [i|] eqn:E1; [cbn [unwrap]; rewrite bind_Ok|done].
  destruct (rposition (ii_children i)) as [n|] eqn:E2; [cbn [unwrap]; rewrite bind_Ok|done]. destruct (ii_children i !! n) as [[]|] eqn:E3; [done| |done].
  intros E4. injection E4 as <-. split; [done|]. intros s vals. go.
Qed.
Lemma sim_top rs ps top rs' : freeze_top H rs ps top = Ok rs' -> kept rs rs' /\ forall s vals, freeze_top H (sv s vals rs) ps top = Ok (sv s vals rs').
Proof.
  unfold freeze_top. cbn [sv rs_version]. destruct (into_internal_node H (rs_version rs) top) as [[nk nd]| |] eqn:E0; [rewrite bind_Ok|done|done]. destruct (in_hash H nd) as [h| |] eqn:Eh; [rewrite bind_Ok|done|done].
  destruct (last ps) as [parent|] eqn:E1; [|intros E4; injection E4 as <-; split; [done|]; intros; go].
  destruct (rposition (ii_children parent)) as [n|] eqn:E2; [cbn [unwrap]; rewrite bind_Ok|done].
  destruct (ii_children parent !! n) as [[oh c|]|] eqn:Ec; [|done|done]. destruct (bool_decide (oh = None)) eqn:E3; [cbn [assert_]; rewrite bind_Ok|done]. destruct (c =? 0) eqn:E4; [cbn [assert_]; rewrite bind_Ok|done].
  intros E5. injection E5 as <-. split; [done|]. intros s vals. go.
Qed.
Lemma sim_int n : forall rs rs', freeze_internal H n rs = Ok rs' -> kept rs rs' /\ forall s vals, freeze_internal H n (sv s vals rs) = Ok (sv s vals rs').
Proof.
  induction n as [|n IH]; intros rs rs'; cbn [freeze_internal]; [by intros [= <-]|]. destruct (last (rs_partial rs)) as [top|] eqn:E0; [cbn [unwrap]; rewrite bind_Ok|done].
  destruct (freeze_top H rs _ top) as [rs1| |] eqn:E; [rewrite bind_Ok|done|done]. intros E2. apply IH in E2 as [K2 S2]. apply sim_top in E as [K1 S1].
  split; [by eapply kept_trans|]. intros s vals. change (rs_partial (sv s vals rs)) with (rs_partial rs). rewrite E0. cbn [unwrap]. rewrite bind_Ok, S1, bind_Ok. apply S2.
Qed.
Lemma sim_freeze rs n rs' : rfreeze H rs n = Ok rs' -> kept rs rs' /\ forall s vals, rfreeze H (sv s vals rs) n = Ok (sv s vals rs').
Proof.
  unfold rfreeze. destruct (freeze_previous_leaf rs) as [rs1| |] eqn:E; [rewrite bind_Ok|done|done]. unfold freeze_internal_nodes. intros E2%sim_int. apply sim_prev in E. destruct E as [K1 S1], E2 as [K2 S2].
  split; [by eapply kept_trans|]. intros s vals. rewrite S1, bind_Ok. apply S2.
Qed.
Lemma sim_leaf rs n l k vh vis rem rs' : insert_at_leaf H rs n l k vh vis rem = Ok rs' -> kept rs rs' /\ forall s vals, insert_at_leaf H (sv s vals rs) n l k vh vis rem = Ok (sv s vals rs').
Proof.
  unfold insert_at_leaf. cbn [sv rs_partial rs_version]. destruct (set_child_at _ _ _ _) as [ps| |] eqn:E0; [rewrite bind_Ok|done|done]. destruct (chain_loop _ _ _ _) as [[ch vi]| |] eqn:E1; [rewrite bind_Ok|done|done].
  destruct (get_nibble (ln_key l) _) as [e| |] eqn:Ee; [rewrite bind_Ok|done|done]. match goal with |- context [rfreeze H ?r ?n] => destruct (rfreeze H r n) as [rs1| |] eqn:E end; [rewrite bind_Ok|done|done].
  apply sim_freeze in E as [K1 S1]. destruct (get_nibble k _) as [mm| |] eqn:Em; [rewrite bind_Ok|done|done]. destruct (nib_ltb e mm) eqn:El; [cbn [assert_]; rewrite bind_Ok|done].
  destruct (set_child_at (rs_partial rs1) _ _ _) as [ps2| |] eqn:E2; [rewrite bind_Ok|done|done]. intros E5. injection E5 as <-. split; [exact K1|]. intros s vals.
  repeat first [rewrite bind_Ok | rewrite E1 | rewrite Ee]. specialize (S1 s vals).
  match goal with |- context [rfreeze H ?a ?b] => replace (rfreeze H a b) with (Ok (sv s vals rs1)) by (rewrite <- S1; reflexivity) end.
  repeat first [rewrite bind_Ok | rewrite Em | rewrite El | progress cbn [assert_]]. change (rs_partial (sv s vals rs1)) with (rs_partial rs1). go.
Qed.
Lemma sim_loop k vh rem : forall rs vis rs', add_loop H rs k vh vis rem = Ok rs' -> kept rs rs' /\ forall s vals, add_loop H (sv s vals rs) k vh vis rem = Ok (sv s vals rs').
Proof.
  induction rem as [|n rem IH]; intros rs vis rs'; cbn [add_loop]; [by intros [= <-]|]. destruct (rs_partial rs !! length vis) as [i|] eqn:E0; [cbn [unwrap]; rewrite bind_Ok|done].
  destruct (ii_children i !! n) as [[oh c|l]|] eqn:Ei.
  - intros E. apply IH in E as [K1 S1]. split; [done|]. intros s vals. change (rs_partial (sv s vals rs)) with (rs_partial rs). rewrite E0. cbn [unwrap]. rewrite bind_Ok, Ei. apply S1.
  - destruct (length vis =? length (rs_partial rs) - 1) eqn:E1; [cbn [assert_]; rewrite bind_Ok|done]. intros E. apply sim_leaf in E as [K1 S1]. split; [done|]. intros s vals.
    change (rs_partial (sv s vals rs)) with (rs_partial rs). rewrite E0. cbn [unwrap]. rewrite bind_Ok, Ei, E1. cbn [assert_]. rewrite bind_Ok. apply S1.
  - destruct (rfreeze H rs (length vis + 1)) as [rs1| |] eqn:E; [rewrite bind_Ok|done|done]. apply sim_freeze in E as [K1 S1]. destruct (set_child_at _ _ _ _) as [ps| |] eqn:E2; [rewrite bind_Ok|done|done]. intros E5. injection E5 as <-. split; [exact K1|].
    intros s vals. change (rs_partial (sv s vals rs)) with (rs_partial rs). rewrite E0. cbn [unwrap]. rewrite bind_Ok, Ei, S1, bind_Ok. change (rs_partial (sv s vals rs1)) with (rs_partial rs1). rewrite E2, bind_Ok. reflexivity.
Qed.

(** *** a store laid over another *)
Definition layh (t h : gmap key (list (version * option value))) : gmap key (list (version * option value)) :=
  union_with (fun a b => Some (a ++ b)) t h.
Definition lay (t s : store) : store := mkStore (st_nodes s ∪ st_nodes t) (st_stale t) (layh (st_history t) (st_history s)) (st_overwrite t).
Lemma layh_lookup t h k : layh t h !! k = match t !! k, h !! k with Some a, Some b => Some (a ++ b) | Some a, None => Some a | None, o => o end.
Proof. unfold layh. rewrite lookup_union_with. by destruct (t !! k), (h !! k). Qed.
Context (v : version) (t : store).
Hypothesis Tn : forall nk, is_Some (st_nodes t !! nk) -> (nk.1 < v)%N.
Hypothesis Th : forall k a, a ∈ default [] (st_history t !! k) -> (a.1 < v)%N.
Lemma lay_put h k x h' : put_value_hist h v k x = Ok h' -> put_value_hist (layh (st_history t) h) v k x = Ok (layh (st_history t) h').
Proof.
  assert (Ins : forall l l', (st_history t !! k = None -> l' = l) -> (forall lt, st_history t !! k = Some lt -> l' = lt ++ l) -> <[k := l']> (layh (st_history t) h) = layh (st_history t) (<[k := l]> h)).
  { intros l l' E0 E1. apply map_eq. intros j. rewrite layh_lookup. destruct (decide (j = k)) as [->|Nj].
    - rewrite !lookup_insert. destruct (st_history t !! k) as [lt|]; [by rewrite (E1 lt)|by rewrite E0].
    - rewrite !lookup_insert_ne by done. by rewrite layh_lookup. }
  unfold put_value_hist. rewrite layh_lookup. pose proof (Th k) as Tk. destruct (h !! k) as [l|] eqn:El.
  - destruct (rev l) as [|[lv y] r] eqn:Er.
    + assert (l = []) as -> by (rewrite <- (rev_involutive l), Er; done). intros [= <-]. destruct (st_history t !! k) as [lt|] eqn:Et; cbn [default] in Tk.
      * rewrite app_nil_r. destruct (rev lt) as [|[lw y] r] eqn:Er2.
        -- f_equal. apply Ins; [done|]. by intros ? [= ->].
        -- assert (lw < v)%N as Lw. { apply (Tk (lw, y)). cbn. apply elem_of_list_In, in_rev. rewrite Er2. by left. }
           assert (N.compare v lw = Gt) as -> by (by apply N.compare_gt_iff). f_equal. apply Ins; [done|]. by intros ? [= ->].
      * cbn [rev]. f_equal. by apply Ins.
    + destruct (st_history t !! k) as [lt|] eqn:Et.
      * rewrite rev_app_distr, Er. cbn [app]. destruct (N.compare v lv); [|done|]; intros [= <-]; f_equal; (apply Ins; [done|]); intros ? [= ->].
        -- by rewrite rev_app_distr, rev_involutive, <- app_assoc.
        -- by rewrite <- app_assoc.
      * rewrite Er. destruct (N.compare v lv); [|done|]; intros [= <-]; f_equal; by apply Ins.
  - intros [= <-]. destruct (st_history t !! k) as [lt|] eqn:Et; cbn [default] in Tk; [|f_equal; by apply Ins].
    destruct (rev lt) as [|[lw y] r] eqn:Er2.
    + f_equal. apply Ins; [done|]. by intros ? [= ->].
    + assert (lw < v)%N as Lw. { apply (Tk (lw, y)). cbn. apply elem_of_list_In, in_rev. rewrite Er2. by left. }
      assert (N.compare v lw = Gt) as -> by (by apply N.compare_gt_iff). f_equal. apply Ins; [done|]. by intros ? [= ->].
Qed.
Lemma lay_values l : forall h h', (forall e, e ∈ l -> e.1.1 = v) -> write_values h l = Ok h' -> write_values (layh (st_history t) h) l = Ok (layh (st_history t) h').
Proof.
  induction l as [|[[w k] x] l IH]; intros h h' Ev; cbn [write_values]; [by intros [= <-]|]. assert (w = v) as -> by (apply (Ev ((w, k), x)); by left).
  destruct (put_value_hist h v k x) as [h1| |] eqn:E; [rewrite bind_Ok|done|done]. rewrite (lay_put _ _ _ _ E), bind_Ok. apply IH. intros e He. apply Ev. by right.
Qed.
Definition at_v (vals : gmap (version * key) (option value)) : Prop := forall w k, is_Some (vals !! (w, k)) -> w = v.
Definition nodes_at (s : store) : Prop := forall nk, is_Some (st_nodes s !! nk) -> nk.1 = v.
Lemma write_grow s nodes vals s' : write_node_batch s nodes vals = Ok s' -> forall nk, is_Some (nodes !! nk) \/ is_Some (st_nodes s !! nk) -> is_Some (st_nodes s' !! nk).
Proof.
  unfold write_node_batch. destruct (assert_ _) as [[]| |]; [rewrite bind_Ok|done|done]. destruct (write_values _ _) as [h| |]; [rewrite bind_Ok|done|done].
  intros [= <-] nk Hn. cbn [st_nodes]. apply lookup_union_is_Some. exact Hn.
Qed.
Lemma lay_write s nodes vals s' : plain s -> nodes_at s' -> at_v vals -> write_node_batch s nodes vals = Ok s' -> write_node_batch (lay t s) nodes vals = Ok (lay t s').
Proof.
  intros [_ Po] Na Av E. pose proof (write_grow _ _ _ _ E) as G. revert E. unfold write_node_batch. rewrite Po. cbn [orb]. destruct (bool_decide (dom nodes ∩ dom (st_nodes s) = ∅)) eqn:Ed; [cbn [assert_]; rewrite bind_Ok|done].
  apply bool_decide_eq_true in Ed. destruct (write_values (st_history s) (sorted_values vals)) as [h| |] eqn:Ew; [rewrite bind_Ok|done|done]. intros [= <-].
  cbn [lay st_nodes st_overwrite st_history st_stale]. rewrite (bool_decide_eq_true_2 (dom nodes ∩ dom (st_nodes s ∪ st_nodes t) = ∅)).
  - rewrite orb_true_r. cbn [assert_]. rewrite bind_Ok. erewrite lay_values; [|by intros [[w k] x] Hx%elem_of_sorted_values; apply (Av w k)|done]. rewrite bind_Ok. unfold lay. cbn [st_nodes st_history]. by rewrite (assoc_L (∪)).
  - apply set_eq. intros nk. rewrite elem_of_intersection, dom_union_L, elem_of_union. split; [|set_solver]. intros [E1 [E2|E2]]; [set_solver|]. rewrite elem_of_dom in E1, E2. apply Tn in E2. pose proof (Na nk (G nk (or_introl E1))). lia.
Qed.

(** *** the state of a restore with its store laid over [t] *)
Definition over (rs : rstate) : rstate := sv (lay t (rs_store rs)) (rs_fvalues rs) rs.
Definition fit (rs : rstate) : Prop := rs_version rs = v /\ plain (rs_store rs) /\ at_v (rs_fvalues rs).
Lemma over_push_key rs k x rs' : fit rs -> push_key H rs k x = Ok rs' -> fit rs' /\ push_key H (over rs) k x = Ok (over rs').
Proof.
  intros (Fv & Fp & Fa). unfold push_key. match goal with |- context [add_one H ?r k _] => set (r0 := r) end.
  destruct (add_one H r0 k (value_hash H x)) as [r1| |] eqn:E; [rewrite bind_Ok|done|done]. intros [= <-]. unfold add_one in E. pose proof (sim_loop _ _ _ _ _ _ E) as [(K1 & K2 & K3) S1]. clear E.
  unfold fit, over in *. cbn [rs_version rs_store rs_fvalues]. rewrite K1, K2, K3. cbn [r0 rs_version rs_store rs_fvalues]. split.
  - split; [done|]. split; [done|]. intros w j. rewrite Fv. destruct (decide ((v, k) = (w, j))) as [[= -> ->]|Ne]; [done|]. rewrite lookup_insert_ne by done. apply Fa.
  - specialize (S1 (lay t (rs_store rs)) (<[(rs_version rs, k) := Some x]> (rs_fvalues rs))). unfold add_one in *.
    match goal with |- context [add_loop H ?a k ?b ?c ?d] => replace (add_loop H a k b c d) with (Ok (sv (lay t (rs_store rs)) (<[(rs_version rs, k) := Some x]> (rs_fvalues rs)) r1)) by (rewrite <- S1; reflexivity) end.
    rewrite bind_Ok. unfold sv. cbn [rs_version rs_store rs_fvalues rs_partial rs_fnodes rs_prev rs_num rs_root]. rewrite K3. reflexivity.
Qed.
Lemma over_push c : forall rs rs' e, fit rs -> push_chunk H rs c = Ok (rs', e) -> fit rs' /\ push_chunk H (over rs) c = Ok (over rs', e).
Proof.
  induction c as [|[k x] c IH]; intros rs rs' e F; cbn [push_chunk]; [intros [= <- <-]; done|]. change (in_order (over rs) k) with (in_order rs k). destruct (in_order rs k); [|intros [= <- <-]; done].
  destruct (push_key H rs k x) as [r1| |] eqn:E; [rewrite bind_Ok|done|done]. apply over_push_key in E as [F1 ->]; [|done]. rewrite bind_Ok. by apply IH.
Qed.
Lemma over_flush rs rs' : fit rs -> flush rs = Ok (rs', None) -> nodes_at (rs_store rs') -> fit rs' /\ flush (over rs) = Ok (over rs', None).
Proof.
  intros (Fv & Fp & Fa). rewrite !flush_eq. destruct (write_node_batch _ _ _) as [s| |] eqn:E; [|done|done]. intros [= <-] Na. cbn [rs_store] in Na. split.
  - split; [done|]. split; [by eapply write_plain|]. intros w k. cbn. rewrite lookup_empty. by intros [? ?].
  - cbn [over sv rs_store rs_fnodes rs_fvalues]. rewrite (lay_write _ _ _ _ Fp Na Fa E). reflexivity.
Qed.
Lemma over_add ovf rs c p rs' : fit rs -> add_chunk H ovf rs c p = Ok (rs', None) -> nodes_at (rs_store rs') -> fit rs' /\ add_chunk H ovf (over rs) c p = Ok (over rs', None).
Proof.
  intros F. unfold add_chunk. destruct c as [|e0 c]; [done|]. destruct (push_chunk H rs (e0 :: c)) as [[r1 e]| |] eqn:E; [rewrite bind_Ok|done|done]. apply over_push in E as [F1 ->]; [|done].
  rewrite bind_Ok. destruct e; [done|]. change (rverify H ovf (over r1) p) with (rverify H ovf r1 p). destruct (rverify H ovf r1 p) as [[]| |]; [|done|done]. by apply over_flush.
Qed.
Lemma flush_grow rs rs' e nk : flush rs = Ok (rs', e) -> is_Some (st_nodes (rs_store rs) !! nk) -> is_Some (st_nodes (rs_store rs') !! nk).
Proof.
  rewrite flush_eq. destruct (write_node_batch _ _ _) as [s| |] eqn:E; [| |done]; intros [= <- _] Hn; cbn [rs_store]; [eapply write_grow; [done|by right]|]. by apply MockStepFacts.write_io_grow.
Qed.
Lemma add_grow ovf rs c p rs' e nk : add_chunk H ovf rs c p = Ok (rs', e) -> is_Some (st_nodes (rs_store rs) !! nk) -> is_Some (st_nodes (rs_store rs') !! nk).
Proof.
  unfold add_chunk. destruct c as [|c0 c]; [by intros [= <- _]|]. destruct (push_chunk H rs (c0 :: c)) as [[rs1 e1]| |] eqn:E; [rewrite bind_Ok|done|done].
  apply push_chunk_store in E. cbn [fst] in E. destruct e1; [intros [= <- _]; congruence|]. destruct (rverify H ovf rs1 p) as [[]| |]; [|intros [= <- _]; congruence|done].
  intros Ef. rewrite <- E. by eapply flush_grow.
Qed.
Lemma deliver_grow ovf src vs m root ns : forall rs rest rs' rest' nk, deliver H ovf src vs m v root (map Deliver ns) rs rest = Ok (rs', rest') ->
  is_Some (st_nodes (rs_store rs) !! nk) -> is_Some (st_nodes (rs_store rs') !! nk).
Proof.
  induction ns as [|n ns IH]; intros rs rest rs' rest' nk; cbn [map deliver]; [by intros [= <- _]|].
  destruct (last (take (n + 1) rest)) as [[k x]|]; [|apply IH]. destruct (get_range_proof H src k vs) as [p| |]; [rewrite bind_Ok|done|done].
  destruct (add_chunk H ovf rs (take (n + 1) rest) p) as [[rs1 [e|]]| |] eqn:E; [done| |done|done]. rewrite bind_Ok. intros D Hn. eapply IH; [done|]. by eapply add_grow.
Qed.
Lemma finish_grow rs s nk : finish H rs = Ok s -> is_Some (st_nodes (rs_store rs) !! nk) -> is_Some (st_nodes s !! nk).
Proof.
  unfold finish. destruct (match rs_partial rs with [] => None | _ => _ end) as [l|].
  - destruct (assert_ _) as [[]| |]; [rewrite bind_Ok|done|done]. intros E Hn. eapply write_grow; [done|by right].
  - destruct (rfreeze H rs 0) as [rs1| |] eqn:E; [rewrite bind_Ok|done|done]. apply rfreeze_store in E. intros W Hn. eapply write_grow; [done|right; congruence].
Qed.
Lemma over_deliver ovf src vs m root ns : forall rs rest rs' rest', fit rs -> deliver H ovf src vs m v root (map Deliver ns) rs rest = Ok (rs', rest') -> nodes_at (rs_store rs') ->
  fit rs' /\ deliver H ovf src vs m v root (map Deliver ns) (over rs) rest = Ok (over rs', rest').
Proof.
  induction ns as [|n ns IH]; intros rs rest rs' rest' F; cbn [map deliver]; [by intros [= <- <-]|].
  destruct (last (take (n + 1) rest)) as [[k x]|]; [|by apply IH]. destruct (get_range_proof H src k vs) as [p| |]; [rewrite !bind_Ok|done|done].
  destruct (add_chunk H ovf rs (take (n + 1) rest) p) as [[rs1 [e|]]| |] eqn:E; [done| |done|done]. rewrite bind_Ok. intros D Na.
  apply over_add in E as [F1 ->]; [|done|].
  - rewrite bind_Ok. by apply IH.
  - intros nk Hn. apply Na. by eapply deliver_grow.
Qed.
Lemma over_finish rs s : fit rs -> finish H rs = Ok s -> nodes_at s -> finish H (over rs) = Ok (lay t s).
Proof.
  intros (Fv & Fp & Fa). unfold finish. cbn [over sv rs_partial rs_fnodes rs_fvalues rs_store rs_version]. destruct (match rs_partial rs with [] => None | _ => _ end) as [l|].
  - destruct (assert_ _) as [[]| |]; [rewrite !bind_Ok|done|done]. intros E Na. apply (lay_write _ _ _ _ Fp Na); [|done]. intros w k. rewrite lookup_empty. by intros [? ?].
  - destruct (rfreeze H rs 0) as [rs1| |] eqn:E; [rewrite bind_Ok|done|done]. apply sim_freeze in E as [(K1 & K2 & K3) S1]. intros W Na. unfold over. rewrite S1, bind_Ok. cbn [sv rs_fnodes rs_fvalues rs_store].
    rewrite K1, K2 in W. by apply (lay_write _ _ _ _ Fp Na Fa).
Qed.
End sim.

(** *** C69, specification: what the tree of version [v] says, read with [r]; all the reads of the API but [get] *)
Definition tree_reads_as (H : list byte -> bytes32) (r : reader) (v : version) (m : gmap key value) : Prop :=
  (forall k, exists p, get_with_proof H r k v = Ok (m !! k, p) /\ verify H p (smt_root H m) k (m !! k) = Ok tt) /\
  get_root_hash H r v = Ok (smt_root H m) /\
  get_root_hash_option H r v = Ok (Some (smt_root H m)) /\
  get_leaf_count r v = Ok (size m) /\
  (forall ovf k x, m !! k = Some x -> exists p n, get_range_proof H r k v = Ok p /\ path_ends m k n /\
    range_verify H ovf p (smt_root H m) (LeafNode k (H x)) (left_hashes H m k n) = Ok tt) /\
  (forall k, m !! k = None -> m <> ∅ -> exists e, get_with_exclusion_proof H r k v = Ok (inr e) /\ names_neighbours H m k e) /\
  (forall k x, m !! k = Some x -> exists p, get_with_exclusion_proof H r k v = Ok (inl (x, p)) /\ verify H p (smt_root H m) k (Some x) = Ok tt) /\
  (forall start, exists it, iter_new r v start = Ok it /\ yields r it (entries_from start m)) /\
  (forall i, exists it, iter_new_by_index r v i = Ok it /\ yields r it (drop i (entries m))).

Section beside.
Context (H : list byte -> bytes32).
Lemma yields_le rd rd' (Le : forall nk nd, rd_node rd nk = Some nd -> rd_node rd' nk = Some nd) (Lv : forall w k x, rd_value rd w k = Some x -> rd_value rd' w k = Some x) l :
  forall it, yields rd it l -> yields rd' it l.
Proof.
  induction l as [|kx l IH]; intros it Y; inversion Y; subst; econstructor; try (by eapply iter_next_le); eauto.
Qed.
Lemma tree_reads_le rd rd' v m (Le : forall nk nd, rd_node rd nk = Some nd -> rd_node rd' nk = Some nd) (Lv : forall w k x, rd_value rd w k = Some x -> rd_value rd' w k = Some x) :
  reader_reads_as H rd v m -> tree_reads_as H rd' v m.
Proof.
  intros (_ & R1 & R2 & R3 & R4 & R5 & R6 & R7 & R8 & R9). unfold tree_reads_as. split_and!.
  - intros k. destruct (R1 k) as (p & E & V). exists p. split; [by eapply gwp_le|done].
  - by eapply root_hash_le.
  - by eapply root_hash_option_le.
  - by eapply leaf_count_le.
  - intros ovf k x Ex. destruct (R5 ovf k x Ex) as (p & n & E & V). exists p, n. split; [by eapply range_le|done].
  - intros k Ek Ne. destruct (R6 k Ek Ne) as (e & E & V). exists e. split; [by eapply excl_le|done].
  - intros k x Ek. destruct (R7 k x Ek) as (p & E & V). exists p. split; [by eapply excl_le|done].
  - intros start. destruct (R8 start) as (it & E & V). exists it. split; [by eapply iter_new_le|by eapply yields_le].
  - intros i. destruct (R9 i) as (it & E & V). exists it. split; [by eapply iter_new_by_index_le|by eapply yields_le].
Qed.
Lemma run_keys ops st xs : run H ops = Ok (st, xs) -> (forall nk, is_Some (st_nodes st !! nk) -> (nk.1 < num_versions ops)%N) /\
  (forall k a, a ∈ default [] (st_history st !! k) -> (a.1 < num_versions ops)%N).
Proof.
  intros R. apply run_inv in R as [_ S]. split.
  - intros nk [nd En]. apply (si_nodes _ _ _ _ _ _ S) in En as [(y & Hy & [-> _]) _]. unfold num_versions. rewrite <- (si_len _ _ _ _ _ _ S). apply (tr_lt H); [by eapply si_trok|done].
  - intros k [w x]. rewrite (si_hist _ _ _ _ _ _ S k). intros Hl. apply hl_lt in Hl. cbn. unfold num_versions. lia.
Qed.
Lemma lay_value t s v m w k : st_history s = hist1 v m -> (forall k a, a ∈ default [] (st_history t !! k) -> (a.1 < v)%N) ->
  store_value (lay t s) w k = if (v <=? w)%N then match m !! k with Some x => Some x | None => store_value t w k end else store_value t w k.
Proof.
  intros Eh Th. unfold store_value, lay. cbn [st_history]. rewrite layh_lookup, Eh. unfold hist1. rewrite lookup_fmap. destruct (m !! k) as [x|]; cbn [fmap option_fmap option_map].
  - destruct (st_history t !! k) as [lt|].
    + rewrite rev_app_distr. cbn [rev app find_value]. by destruct (v <=? w)%N.
    + cbn [rev app find_value]. by destruct (v <=? w)%N.
  - destruct (st_history t !! k) as [lt|]; by destruct (v <=? w)%N.
Qed.

(** *** C69: [t] is the store of any run of commits and purges, with versions below [v].  A restore opened on it with [new_overwrite] accepts the
    honest chunks, whatever their sizes, and finishes; then the tree of version [v] is the original one, and every version
    that could be read before still reads as it did.  [get] at version [v] though falls back to the value an older version gave to
    a key the restored tree lacks. *)
Theorem C69_restore_beside (ovf : bool) (ops opst : list op) st xs t ys (vs v : version) (root : hash) (ns : list nat) :
  run H ops = Ok (st, xs) -> readable ops vs -> get_root_hash H (store_reader st) vs = Ok root -> let m := contents_at (history ops) vs in m <> ∅ ->
  run H opst = Ok (t, ys) -> (num_versions opst <= v)%N ->
  hash_broken H (root_inputs H m) \/
  exists rs rest, deliver H ovf (store_reader st) vs m v root (map Deliver ns) (new_overwrite t v root) (entries m) = Ok (rs, rest) /\
    (rest = [] -> exists s, finish H rs = Ok s /\ tree_reads_as H (store_reader s) v m /\
      (forall k, get (store_reader s) k v = Ok (match m !! k with Some x => Some x | None => last_contents (history opst) !! k end)) /\
      (forall w, readable opst w -> reads_as H s w (contents_at (history opst) w))).
Proof.
  intros R L Er m Nm Rt Lv. destruct (run_keys opst t ys Rt) as [Tn Th].
  assert (Tn' : forall nk, is_Some (st_nodes t !! nk) -> (nk.1 < v)%N) by (intros nk Hn; apply Tn in Hn; lia).
  assert (Th' : forall k a, a ∈ default [] (st_history t !! k) -> (a.1 < v)%N) by (intros k a Ha; apply Th in Ha; lia).
  destruct (deliver_all_ok H ovf ops st xs vs v root (map Deliver ns) R L Er) as [B|(rs & X & Y & E & Ho)]; [by left|]. fold m in E, Ho.
  destruct (C34_restore_completes H ovf ops st xs vs v root (map Deliver ns) R L Er Nm) as [B|(rs1 & s1 & E1 & F1 & _)]; [by left|]. fold m in E1.
  destruct (restored_based H ovf ops st xs vs v root _ rs1 s1 R L Er Nm E1 F1) as [B|(C1 & _)]; [by left|]. fold m in C1.
  assert (N1 : nodes_at v s1) by (intros [w p] [nd Hn]; by apply C1 in Hn as [-> _]).
  unfold deliver_all in E, E1. destruct (restore_new H store_empty v root) as [rs0| |] eqn:E0; [rewrite bind_Ok in E, E1|done|done].
  assert (Z0 : new_overwrite t v root = over t rs0).
  { unfold restore_new in E0. rewrite rightmost_none in E0 by done. injection E0 as <-. unfold over, sv, new_overwrite, lay. cbn. f_equal. destruct t as [tn ts th to]. cbn. f_equal.
    - by rewrite (left_id_L ∅ (∪)).
    - apply map_eq. intros k. rewrite layh_lookup, lookup_empty. by destruct (th !! k). }
  assert (F0 : fit v rs0).
  { unfold restore_new in E0. rewrite rightmost_none in E0 by done. injection E0 as <-. split; [done|]. split; [done|]. intros w k. cbn. rewrite lookup_empty. by intros [? ?]. }
  assert (Na : nodes_at v (rs_store rs)).
  { intros nk Hn. apply N1. eapply (finish_grow H); [exact F1|]. rewrite deliver_app, E, bind_Ok in E1. change [Deliver (size m)] with (map Deliver [size m]) in E1.
    eapply (deliver_grow H); [exact E1|done]. }
  destruct (over_deliver H v t Tn' Th' ovf (store_reader st) vs m root ns rs0 (entries m) rs (rest_of m X) F0 E Na) as [Fr D].
  right. exists (over t rs), (rest_of m X). rewrite Z0. split; [exact D|]. intros Ee.
  destruct (finish_honest H v m rs X Y Nm Ho Ee) as (s & Ef & C & Eh).
  assert (Ns : nodes_at v s) by (intros [w p] [nd Hn]; by apply C in Hn as [-> _]).
  exists (lay t s). split; [by apply (over_finish H v t Tn' Th')|].
  assert (Bs : based H v m s).
  { destruct Fr as (_ & Fp & _). destruct (finish_plain H rs s Fp Ef) as [P1 P2]. done. }
  assert (V : view H (store_reader s) v m).
  { pose proof (based_inv H v m s Nm Bs) as S. cbn zeta in S.
    assert (Eh0 : history [Commit (hist_of v m)] = hist_of v m) by (cbn; by rewrite app_nil_r). rewrite <- Eh0 in S at 3.
    pose proof (sb_view H v s [Commit (hist_of v m)] v v S ltac:(lia)) as W. rewrite Eh0, hist_of_at in W. apply W. rewrite hist_of_length. lia. }
  assert (Ln : forall nk nd, st_nodes s !! nk = Some nd -> (st_nodes s ∪ st_nodes t) !! nk = Some nd) by (intros nk nd En; by apply lookup_union_Some_l).
  split; [|split].
  - apply (tree_reads_le (store_reader s)); [exact Ln| |by apply view_reads].
    intros w k x. cbn. rewrite (lay_value t s v m w k Eh Th'), (hist1_value v s m k w Eh). destruct (v <=? w)%N; [|done]. by intros ->.
  - intros k. unfold get. cbn. rewrite (lay_value t s v m v k Eh Th'), N.leb_refl. destruct (m !! k); [done|]. f_equal.
    apply run_inv in Rt as [_ S]. change (store_value t v k) with (rd_value (store_reader t) v k). rewrite (value_ok H _ _ _ _ _ _ _ S). unfold contents_at, last_contents. rewrite take_ge; [done|]. unfold num_versions in Lv. lia.
  - intros w Rw. apply view_reads. apply (view_mono H (store_reader t) _ w _ v); [by eapply run_view|destruct Rw; lia|..].
    + intros nk nd En. split; [|apply Tn'; by eexists]. cbn. apply lookup_union_Some_raw. right. split; [|done]. apply eq_None_not_Some. intros Hs. apply Ns in Hs.
      assert (nk.1 < v)%N by (apply Tn'; by eexists). lia.
    + intros w' k L'. cbn. rewrite (lay_value t s v m w' k Eh Th'). by destruct (N.leb_spec v w'); [lia|].
Qed.

(** *** [new] on a store that holds a tree *)
Lemma node_at_child M ver M0 ver0 p n : 2 <= size (U p M) -> U (p ++ [n]) M <> ∅ -> node_at H M ver p = node_at H M0 ver0 p ->
  2 <= size (U p M0) /\ U (p ++ [n]) M0 <> ∅ /\ ver (p ++ [n]) = ver0 (p ++ [n]).
Proof.
  intros Mn Ne E. rewrite node_at_internal in E by done. destruct (size_cases (U p M0)) as [Z|[(k & h & Z)|Hm]].
  - by rewrite node_at_null in E.
  - by rewrite (node_at_leaf H _ _ _ k h) in E.
  - rewrite node_at_internal in E by done. injection E as Ec _. split; [done|]. apply (f_equal (fun c => c !! n)) in Ec. rewrite !children_of_lookup in Ec. unfold child_of in Ec.
    destruct (size (U (p ++ [n]) M)) as [|[|a]] eqn:E1; [by apply map_size_empty_inv in E1|..]; destruct (size (U (p ++ [n]) M0)) as [|[|b]] eqn:E2; try done;
      injection Ec; intros; (split; [|congruence]); intros Z; rewrite Z, map_size_empty in E2; done.
Qed.
Lemma tr_before tr b : Tr H tr b -> forall x, x ∈ tr -> vs_ok H x /\ forall q, lv [] q (vs_M0 x) -> (vs_ver0 x q < vs_v x)%N.
Proof.
  induction 1 as [s O|tr b b' s T IH Hb O]; intros x Hx.
  - apply elem_of_list_singleton in Hx as ->. split; [done|]. intros q (_ & Ne & _). destruct Ne. apply map_empty. intros k. apply eq_None_not_Some. intros [z Z]. by apply U_lookup in Z as [Z _].
  - apply elem_of_app in Hx as [Hx| ->%elem_of_list_singleton]; [by apply IH|]. split; [done|]. cbn [vnext vs_M0 vs_ver0 vs_v]. intros q L.
    destruct (tr_inv H tr b T) as (T1 & C1 & x & Lx & Eb). assert (C' : cur_ok H tr b') by (destruct Hb as [->| ->]; [done|by eapply cur_rekey]).
    destruct C' as (C2 & _). destruct (C2 q L) as [(y & Hy & [Ev _]) _]. cbn in Ev. rewrite Ev. by apply (tr_lt H).
Qed.
(** a version that writes a node writes its parent *)
Lemma parent_written tr b x q : Tr H tr b -> x ∈ tr -> q <> [] -> lv [] q (a_map (vs_a x)) -> a_ver (vs_a x) q = vs_v x ->
  lv [] (parent q) (a_map (vs_a x)) /\ a_ver (vs_a x) (parent q) = vs_v x.
Proof.
  intros T Hx Nq L E. destruct (tr_before tr b T x Hx) as [(O1 & _) V]. destruct L as (_ & Ne & [L|L]); [done|]. destruct (parent_eq q Nq) as [n Eq].
  assert (Lp : lv [] (parent q) (a_map (vs_a x))).
  { split; [apply prefix_nil|]. split; [intros Z; rewrite Z, map_size_empty in L; lia|]. destruct (decide (parent q = [])) as [->|Np]; [by left|right].
    destruct (parent_eq _ Np) as [n' Ep]. rewrite Ep in L. by apply U_many_up in L. }
  split; [done|]. destruct (O1 _ Lp) as [O|(L0 & Ev & En)]; [done|]. exfalso. rewrite Eq in Ne.
  destruct (node_at_child _ _ _ _ _ n L Ne En) as (M0 & N0 & Ec). rewrite <- Eq in *. rewrite E in Ec.
  assert (L0q : lv [] q (vs_M0 x)) by (split; [apply prefix_nil|]; split; [done|by right]). apply V in L0q. lia.
Qed.
Lemma floor_no_purge ops : (forall l, Purge l ∉ ops) -> Driver.floor ops = 0%N.
Proof.
  unfold Driver.floor. assert (G : forall f, f.1 = 0%N -> (forall l, Purge l ∉ ops) -> (fold_left floor_step ops f).1 = 0%N); [|by apply G].
  induction ops as [|o ops IH]; intros f Ef Np; [done|]. cbn [fold_left]. apply IH; [|intros l Hl; apply (Np l); by right].
  destruct o as [a|a|l]; [done|done|]. exfalso. apply (Np l). by left.
Qed.
(** A restore opened with [new] on a store that holds any non-empty version, and was never purged, does not even start: it panics or fails. *)
Theorem C69_new_refuted (opst : list op) t ys (w v : version) (root : hash) rs :
  run H opst = Ok (t, ys) -> (forall l, Purge l ∉ opst) -> (w < num_versions opst)%N -> contents_at (history opst) w <> ∅ -> restore_new H t v root <> Ok rs.
Proof.
  intros R Np Lw Nc. apply run_inv in R as [_ S]. rewrite floor_no_purge in S by done. set (tb := xrun H tb0 opst) in *.
  destruct (read_ok H _ _ _ _ _ w S (N.le_0_l _)) as (x & Ex & Vx & Mx & _); [exact Lw|]. assert (Hx : x ∈ tb.1) by (by eapply elem_of_list_lookup_2).
  destruct (si_tr _ _ _ _ _ _ S) as [[Z _]|T]; [by rewrite Z in Hx; apply elem_of_nil in Hx|]. pose proof (si_trok _ _ _ _ _ _ S) as TO.
  assert (St : forall nk nd, st_nodes t !! nk = Some nd <-> exists y, y ∈ tb.1 /\ nodes_of H y nk nd).
  { intros nk nd. rewrite (si_nodes _ _ _ _ _ _ S). split; [by intros [? _]|]. intros Hy. split; [done|]. intros s Sa. apply (si_floor _ _ _ _ _ _ S); [done|].
    destruct Sa as (z & Hz & -> & Sz). destruct TO as (_ & TO & _). apply TO in Sz as [? _]; [lia|done]. }
  assert (Up : forall y p, y ∈ tb.1 -> lv [] p (a_map (vs_a y)) -> a_ver (vs_a y) p = vs_v y -> forall rp, recover_up t (vs_v y) (rev p) <> Ok rp).
  { intros y p Hy. induction p as [|n p IH] using rev_ind; intros L E rp.
    - cbn [rev recover_up]. assert (En : is_Some (st_nodes t !! (vs_v y, []))) by (eexists; apply St; exists y; split; [done|]; split; [done|]; split; [reflexivity|by left]). destruct En as [nd ->]. done.
    - rewrite rev_app_distr. cbn [rev app recover_up]. rewrite rev_involutive.
      assert (En : is_Some (st_nodes t !! (vs_v y, p ++ [n]))) by (eexists; apply St; exists y; split; [done|]; split; [done|]; split; [reflexivity|by right]). destruct En as [nd ->].
      destruct (parent_written _ _ y (p ++ [n]) T Hy) as [L' E']; [by destruct p|done|done|]. rewrite parent_snoc in L', E'. by apply IH. }
  unfold restore_new. pose proof (store_rightmost_ok t) as Rm. destruct (store_rightmost t) as [[[lw p] lf]|].
  - destruct Rm as [En _]. apply St in En as (y & Hy & Ev & End & Hp). cbn [fst snd] in *. subst lw. unfold recover_partial_nodes. cbn [fst snd].
    destruct (decide (p = [])) as [->|Nnp]; [done|]. destruct Hp as [?|[L E]]; [done|]. destruct (parent_written _ _ y p T Hy Nnp L E) as [L' E'].
    rewrite bool_decide_eq_false_2 by done. cbn [negb ensure_]. rewrite bind_Ok. destruct (parent_eq p Nnp) as [n Ep]. rewrite Ep, rev_app_distr. cbn [rev app].
    pose proof (Up y (parent p) Hy L' E') as U. destruct (recover_up t (vs_v y) (rev (parent p))) as [rp| |]; [by destruct (U rp)|done|done].
  - intros _. assert (exists k z, contents_at (history opst) w !! k = Some z) as (k & z & Ek) by (by apply map_choose).
    destruct (ThmAppendOk.leaf_live (a_map (vs_a x)) k (H z)) as (q & Lq & Uq); [by rewrite Mx, lookup_fmap, Ek|].
    assert (Ni : exists nk, node_in x nk /\ nk.2 = q).
    { destruct (decide (q = [])) as [->|Nq]; [exists (vs_v x, []); split; [by left|done]|]. exists (a_ver (vs_a x) q, q). split; [right; done|done]. }
    destruct Ni as (nk & Ni & Eq). apply (si_node_in H _ _ _ _ _ x nk S Hx (N.le_0_l _)) in Ni. unfold node_val in Ni. rewrite Eq, (node_at_leaf H _ _ _ _ _ Uq) in Ni. by apply Rm in Ni.
Qed.
End beside.

(** *** concrete runs: a store with one version, holding only K80, and a tree without K80 *)
Definition old_ops : list op := [Commit [ [(K80, Some vb)] ]].
Definition new_ops : list op := [Commit [ [(K00, Some va); (KC0, Some vc)] ]].
Definition new_map : gmap key value := {[ K00 := va; KC0 := vc ]}.
Definition beside (ns : list nat) : option store :=
  match run toy new_ops, run toy old_ops with
  | Ok (st, _), Ok (t, _) =>
      match deliver toy true (store_reader st) 0 new_map 7 (smt_root toy new_map) (map Deliver ns) (new_overwrite t 7 (smt_root toy new_map)) (entries new_map) with
      | Ok (rs, []) => match finish toy rs with Ok s => Some s | _ => None end
      | _ => None
      end
  | _, _ => None
  end.
(** the hypotheses of C69_restore_beside are met *)
Example beside_meets : contents_at (history new_ops) 0 = new_map /\ new_map <> ∅ /\ readable new_ops 0 /\ num_versions old_ops = 1%N /\ readable old_ops 0.
Proof.
  split; [apply (bool_decide_eq_true_1 _); vm_compute; reflexivity|]. split; [apply insert_non_empty|]. split; [split; [vm_compute; congruence|reflexivity]|].
  split; [reflexivity|]. split; [vm_compute; congruence|reflexivity].
Qed.
(** [get] is not a read of the restored tree: after the restore, version 7 does not hold K80 (its tree proves it), yet [get] returns the value of version 0;
    the restored entries and the older version read as they should. *)
Theorem C69_get_refuted : exists s p r, beside [0; 0] = Some s /\ beside [1] = Some s /\ new_map !! K80 = None /\
  get (store_reader s) K80 7 = Ok (Some vb) /\
  get_root_hash toy (store_reader s) 7 = Ok r /\ r = smt_root toy new_map /\
  get_with_proof toy (store_reader s) K80 7 = Ok (None, p) /\ verify_nonexistence toy p r K80 = Ok tt /\
  get (store_reader s) K00 7 = Ok (Some va) /\ get_root_hash toy (store_reader s) 0 = Ok (smt_root toy {[ K80 := vb ]}).
Proof.
  assert (E : match beside [0; 0], beside [1] with
              | Some s, Some s' => bool_decide (st_nodes s = st_nodes s') && bool_decide (st_history s = st_history s') && bool_decide (st_stale s = st_stale s') && Bool.eqb (st_overwrite s) (st_overwrite s') &&
                  match get (store_reader s) K80 7, get (store_reader s) K00 7, get_root_hash toy (store_reader s) 7, get_with_proof toy (store_reader s) K80 7, get_root_hash toy (store_reader s) 0 with
                  | Ok (Some x), Ok (Some y), Ok r, Ok (None, p), Ok r0 => bool_decide (x = vb) && bool_decide (y = va) && bool_decide (r = smt_root toy new_map) && bool_decide (r0 = smt_root toy {[ K80 := vb ]}) &&
                      match verify_nonexistence toy p r K80 with Ok tt => true | _ => false end
                  | _, _, _, _, _ => false
                  end
              | _, _ => false
              end = true) by (vm_compute; reflexivity).
  destruct (beside [0; 0]) as [s|]; [|discriminate E]. destruct (beside [1]) as [s'|]; [|discriminate E].
  apply andb_true_iff in E as [E0 E]. rewrite !andb_true_iff, !bool_decide_eq_true, Bool.eqb_true_iff in E0. destruct E0 as (((E1 & E2) & E3) & E4).
  assert (s' = s) as -> by (destruct s, s'; cbn in *; congruence).
  destruct (get (store_reader s) K80 7) as [[x|]| |] eqn:G1; try discriminate E. destruct (get (store_reader s) K00 7) as [[y|]| |] eqn:G2; try discriminate E.
  destruct (get_root_hash toy (store_reader s) 7) as [r| |] eqn:G3; try discriminate E. destruct (get_with_proof toy (store_reader s) K80 7) as [[[?|] p]| |] eqn:G4; try discriminate E.
  destruct (get_root_hash toy (store_reader s) 0) as [r0| |] eqn:G5; try discriminate E. apply andb_true_iff in E as [E F]. destruct (verify_nonexistence toy p r K80) as [[]| |] eqn:V; try discriminate F.
  rewrite !andb_true_iff, !bool_decide_eq_true in E. destruct E as (((-> & ->) & Er) & ->). exists s, p, r. split_and!; [reflexivity|reflexivity|reflexivity|exact G1|exact G3|exact Er|exact G4|exact V|exact G2|exact G5].
Qed.
(** the hypotheses of C69_new_refuted are met *)
Example new_fails_meets : (forall l, Purge l ∉ old_ops) /\ (0 < num_versions old_ops)%N /\ contents_at (history old_ops) 0 <> ∅.
Proof.
  split; [|split; [reflexivity|]].
  - intros l Hl. apply elem_of_list_singleton in Hl. discriminate Hl.
  - assert (contents_at (history old_ops) 0 = {[ K80 := vb ]}) as ->; [apply (bool_decide_eq_true_1 _); vm_compute; reflexivity|]. apply insert_non_empty.
Qed.
