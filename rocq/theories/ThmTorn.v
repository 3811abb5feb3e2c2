(** C103: a write of a restore that is torn by a crash. *)
From Coq Require Import Strings.String.
From Verif Require Import Base Spec SpecOrder SpecRange NodeType ProofDef TreeCache Tree Mock Driver Restore KeyFacts SmtFacts ProofFacts NodeFacts Canon CanonSib ReadFacts PutFacts KeyOrder OrderFacts ThmNode ValueFacts DriverFacts ThmProof ThmStore ThmStore2 Demo RangeFacts ThmRange
  RestoreFacts RestoreFacts2 RestoreVerify RestoreTop RestoreRec RestoreDriver RestoreRun ThmRestore Toy ToyRestore.
From Verif Require ThmOver.
From Coq Require Import Lia.
Local Opaque Spec.smt root_inputs ms_in.

(** *** The client of C33, C34, of which a crash may also hit a write (reader.rs and writer.rs do not say that write_node_batch is atomic).
    [TTorn n nodes kept]: the next [n + 1] entries are delivered, and the process dies in the [write_node_batch] of restore.rs:317: of the batch the store has
    all of the nodes or none of them ([nodes]), and of the values those of the keys in [kept].  Then the restore is reopened on it. *)
Inductive tevent : Type := TDeliver (n : nat) | TCrash | TTorn (n : nat) (nodes : bool) (kept : gset key).
Section drivers.
Context (H : list byte -> bytes32) (ovf : bool).
(** the store after the write; [Err], [Panic] when the chunk is not accepted *)
Definition torn_write (nodes : bool) (kept : gset key) (rs : rstate) (chunk : list (key * value)) (p : range_proof) : outcome store :=
  match chunk with
  | [] => Err (EOther "Should not add empty chunks.")
  | _ =>
      '(rs, e) ← push_chunk H rs chunk;
      match e with
      | Some e => Err e
      | None =>
          _ ← rverify H ovf rs p;
          write_node_batch (rs_store rs) (if nodes then rs_fnodes rs else ∅) (filter (fun e => e.1.2 ∈ kept) (rs_fvalues rs))
      end
  end.
(** the restore, the entries to be delivered, and the keys of which a value has been written *)
Record torn_client : Type := Torn { tc_obj : rstate; tc_rest : list (key * value); tc_written : gset key }.
Fixpoint tdeliver (src : reader) (vs : version) (m : gmap key value) (v : version) (root : hash) (evs : list tevent) (c : torn_client) : outcome torn_client :=
  let rs := tc_obj c in let rest := tc_rest c in
  match evs with
  | [] => Ok c
  | TDeliver n :: evs' =>
      match last (take (n + 1) rest) with
      | None => tdeliver src vs m v root evs' c
      | Some (k, _) =>
          p ← get_range_proof H src k vs;
          '(rs', e) ← add_chunk H ovf rs (take (n + 1) rest) p;
          match e with
          | Some e => Err e
          | None => tdeliver src vs m v root evs' (Torn rs' (drop (n + 1) rest) (tc_written c ∪ list_to_set (take (n + 1) rest).*1))
          end
      end
  | TCrash :: evs' =>
      rs' ← restore_new H (rs_store rs) v root;
      tdeliver src vs m v root evs' (Torn rs' (above_rightmost (rs_store rs) m) (tc_written c))
  | TTorn n nodes kept :: evs' =>
      match last (take (n + 1) rest) with
      | None => tdeliver src vs m v root evs' c
      | Some (k, _) =>
          p ← get_range_proof H src k vs;
          s ← torn_write nodes kept rs (take (n + 1) rest) p;
          rs' ← restore_new H s v root;
          tdeliver src vs m v root evs' (Torn rs' (above_rightmost s m) (tc_written c ∪ (list_to_set (take (n + 1) rest).*1 ∩ kept)))
      end
  end.
Definition tdeliver_all (src : reader) (vs : version) (m : gmap key value) (v : version) (root : hash) (evs : list tevent) : outcome torn_client :=
  rs ← restore_new H store_empty v root; tdeliver src vs m v root evs (Torn rs (entries m) ∅).
End drivers.

(** *** The restore does not look at the values of the store *)
Section values.
Context (H : list byte -> bytes32) (h : gmap key (list (version * option value))).
Definition with_values (s : store) : store := mkStore (st_nodes s) (st_stale s) h (st_overwrite s).
Definition on_values (rs : rstate) : rstate :=
  RS (with_values (rs_store rs)) (rs_version rs) (rs_partial rs) (rs_fnodes rs) (rs_fvalues rs) (rs_prev rs) (rs_num rs) (rs_root rs).
Notation lift o := (x ← o; Ok (on_values x)).
Lemma fpl_values rs : freeze_previous_leaf (on_values rs) = lift (freeze_previous_leaf rs).
Proof.
  unfold freeze_previous_leaf. cbn [on_values rs_num rs_partial rs_version]. destruct (rs_num rs =? 0)%nat; [done|]. destruct (unwrap (last (rs_partial rs))) as [i| |]; [|done|done]. rewrite !bind_Ok.
  destruct (unwrap (rposition (ii_children i))) as [n| |]; [|done|done]. rewrite !bind_Ok. by destruct (ii_children i !! n) as [[]|].
Qed.
Lemma freeze_top_values rs ps top : freeze_top H (on_values rs) ps top = lift (freeze_top H rs ps top).
Proof.
  unfold freeze_top. cbn [on_values rs_version]. destruct (into_internal_node H (rs_version rs) top) as [[nk nd]| |]; [|done|done]. rewrite !bind_Ok.
  destruct (in_hash H nd) as [x| |]; [|done|done]. rewrite !bind_Ok. destruct (last ps) as [parent|]; [|done].
  destruct (unwrap (rposition (ii_children parent))) as [n| |]; [|done|done]. rewrite !bind_Ok. destruct (ii_children parent !! n) as [[oh c|l]|]; [|done|done].
  destruct (assert_ (bool_decide (oh = None))) as [[]| |]; [|done|done]. rewrite !bind_Ok. by destruct (assert_ (c =? 0)%nat) as [[]| |].
Qed.
Lemma freeze_internal_values n : forall rs, freeze_internal H n (on_values rs) = lift (freeze_internal H n rs).
Proof.
  induction n as [|n IH]; intros rs; [done|]. cbn [freeze_internal]. change (rs_partial (on_values rs)) with (rs_partial rs). destruct (unwrap (last (rs_partial rs))) as [top| |]; [|done|done]. rewrite !bind_Ok.
  rewrite freeze_top_values. destruct (freeze_top H rs _ top) as [rs'| |]; [|done|done]. rewrite !bind_Ok. apply IH.
Qed.
Lemma rfreeze_values rs n : rfreeze H (on_values rs) n = lift (rfreeze H rs n).
Proof.
  unfold rfreeze. rewrite fpl_values. destruct (freeze_previous_leaf rs) as [rs'| |]; [|done|done]. rewrite !bind_Ok. unfold freeze_internal_nodes. change (rs_partial (on_values rs')) with (rs_partial rs'). apply freeze_internal_values.
Qed.
Lemma insert_values rs n e k vh vis rem : insert_at_leaf H (on_values rs) n e k vh vis rem = lift (insert_at_leaf H rs n e k vh vis rem).
Proof.
  unfold insert_at_leaf. cbn [on_values rs_partial rs_version]. destruct (set_child_at (rs_partial rs) _ n _) as [ps| |]; [|done|done]. rewrite !bind_Ok.
  destruct (chain_loop _ _ vis rem) as [[chain vis']| |]; [|done|done]. rewrite !bind_Ok. destruct (get_nibble (ln_key e) _) as [en| |]; [|done|done]. rewrite !bind_Ok.
  match goal with |- context [set_partial rs ?l] => change (set_partial (on_values rs) l) with (on_values (set_partial rs l)); generalize (set_partial rs l) end. intros rs1.
  change (rs_partial (on_values rs1)) with (rs_partial rs1). rewrite rfreeze_values. destruct (rfreeze H rs1 _) as [rs2| |]; [|done|done]. rewrite !bind_Ok.
  destruct (get_nibble k _) as [mn| |]; [|done|done]. rewrite !bind_Ok. destruct (assert_ (nib_ltb en mn)) as [[]| |]; [|done|done]. rewrite !bind_Ok.
  change (rs_partial (on_values rs2)) with (rs_partial rs2). by destruct (set_child_at (rs_partial rs2) _ mn _) as [ps2| |].
Qed.
Lemma add_loop_values k vh rem : forall rs vis, add_loop H (on_values rs) k vh vis rem = lift (add_loop H rs k vh vis rem).
Proof.
  induction rem as [|n rem IH]; intros rs vis; [done|]. cbn [add_loop]. change (rs_partial (on_values rs)) with (rs_partial rs). destruct (unwrap (rs_partial rs !! length vis)) as [i| |]; [|done|done]. rewrite !bind_Ok.
  destruct (ii_children i !! n) as [[oh c|l]|]; [apply IH| |].
  - destruct (assert_ _) as [[]| |]; [|done|done]. rewrite !bind_Ok. apply insert_values.
  - rewrite rfreeze_values. destruct (rfreeze H rs _) as [rs1| |]; [|done|done]. rewrite !bind_Ok. change (rs_partial (on_values rs1)) with (rs_partial rs1). by destruct (set_child_at (rs_partial rs1) _ n _) as [ps2| |].
Qed.
Lemma push_key_values rs k x : push_key H (on_values rs) k x = lift (push_key H rs k x).
Proof.
  set (r := RS (rs_store rs) (rs_version rs) (rs_partial rs) (rs_fnodes rs) (<[ (rs_version rs, k) := Some x ]> (rs_fvalues rs)) (rs_prev rs) (rs_num rs) (rs_root rs)).
  change (push_key H (on_values rs) k x) with (rs' ← add_loop H (on_values r) k (value_hash H x) [] (key_nibbles k);
    Ok (RS (rs_store rs') (rs_version rs') (rs_partial rs') (rs_fnodes rs') (rs_fvalues rs') (Some (LeafNode k (value_hash H x))) (rs_num rs' + 1) (rs_root rs'))).
  change (push_key H rs k x) with (rs' ← add_loop H r k (value_hash H x) [] (key_nibbles k);
    Ok (RS (rs_store rs') (rs_version rs') (rs_partial rs') (rs_fnodes rs') (rs_fvalues rs') (Some (LeafNode k (value_hash H x))) (rs_num rs' + 1) (rs_root rs'))).
  rewrite add_loop_values. by destruct (add_loop H _ k _ [] _) as [rs1| |].
Qed.
Lemma push_chunk_values c : forall rs, push_chunk H (on_values rs) c = ('(rs', e) ← push_chunk H rs c; Ok (on_values rs', e)).
Proof.
  induction c as [|[k x] c IH]; intros rs; [done|]. cbn [push_chunk]. change (in_order (on_values rs) k) with (in_order rs k). destruct (in_order rs k); [|done].
  rewrite push_key_values. destruct (push_key H rs k x) as [rs1| |]; [|done|done]. rewrite !bind_Ok. apply IH.
Qed.
Lemma rverify_values ovf rs p : rverify H ovf (on_values rs) p = rverify H ovf rs p.
Proof. reflexivity. Qed.
Lemma recover_up_values s v rp : recover_up (with_values s) v rp = recover_up s v rp.
Proof. induction rp as [|n rp IH]; cbn [recover_up with_values st_nodes]; [done|]. destruct (st_nodes s !! _); [apply IH|done]. Qed.
Lemma recover_children_values s v nk l : forall i, recover_children H (with_values s) v nk l i = recover_children H s v nk l i.
Proof.
  induction l as [|n l IH]; intros i; cbn [recover_children with_values st_nodes]; [done|]. destruct (st_nodes s !! _) as [nd|]; [|apply IH]. destruct (recover_child H nd); [|done|done]. rewrite !bind_Ok. apply IH.
Qed.
Lemma recover_loop_values s v kv rp : forall prev, recover_loop H (with_values s) v kv rp prev = recover_loop H s v kv rp prev.
Proof.
  induction rp as [|n rp IH]; intros prev; cbn [recover_loop]; rewrite recover_children_values; [done|]. destruct (recover_children H s v _ _ _); [|done|done]. rewrite !bind_Ok. by rewrite IH.
Qed.
Lemma restore_new_values s v root : restore_new H (with_values s) v root = lift (restore_new H s v root).
Proof.
  unfold restore_new. change (store_rightmost (with_values s)) with (store_rightmost s). destruct (store_rightmost s) as [[nk l]|]; [|done].
  assert (E : recover_partial_nodes H (with_values s) v nk = recover_partial_nodes H s v nk).
  { unfold recover_partial_nodes. destruct (ensure_ _ _); [|done|done]. rewrite !bind_Ok. destruct (rev nk.2) as [|n0 rp]; [done|]. rewrite recover_up_values. destruct (recover_up s nk.1 rp); [|done|done]. rewrite !bind_Ok. apply recover_loop_values. }
  rewrite E. by destruct (recover_partial_nodes H s v nk).
Qed.
End values.

Section reads.
Context (H : list byte -> bytes32).
(** A proof is read with the values of another store: it is the same, or the value of the key is missing. *)
Lemma gwp_values rn r0 r1 g0 g1 k v rem : forall top nk sibs, (g0 v k = None -> g1 v k = None) ->
  get_with_proof_loop H (mkReader rn g1 r1) k v rem top nk sibs =
  ('(x, p) ← get_with_proof_loop H (mkReader rn g0 r0) k v rem top nk sibs;
   match x with Some _ => y ← rd_get_value (mkReader rn g1 r1) v k; Ok (Some y, p) | None => Ok (None, p) end).
Proof.
  induction rem as [|n rem IH]; intros top nk sibs Hg; cbn [get_with_proof_loop rd_node]; destruct (ok_or _ (rn nk)) as [[|i|l]| |]; rewrite ?bind_Ok; try done.
  - by destruct top.
  - destruct (decide (ln_key l = k)) as [->|]; [|done]. unfold rd_get_value. cbn [rd_value]. destruct (g0 v k) as [y|]; cbn; [|by rewrite Hg]. by destruct (g1 v k).
  - by destruct top.
  - destruct (get_only_child_with_siblings H rn nk i n) as [[ck s]| |]; [|done|done]. rewrite !bind_Ok. destruct ck as [ck|]; [by apply IH|done].
  - destruct (decide (ln_key l = k)) as [->|]; [|done]. unfold rd_get_value. cbn [rd_value]. destruct (g0 v k) as [y|]; cbn; [|by rewrite Hg]. by destruct (g1 v k).
Qed.
End reads.

Section run.
Context (H : list byte -> bytes32) (v : version) (m : gmap key value).
Implicit Types (X Y W : gmap key value) (P : gset key).
Definition among P : gmap key value := filter (fun e : key * value => e.1 ∈ P) m.
Lemma among_lookup P k : among P !! k = if decide (k ∈ P) then m !! k else None.
Proof.
  unfold among. destruct (decide (k ∈ P)) as [E|E].
  - destruct (m !! k) as [x|] eqn:Em; [by apply map_filter_lookup_Some|]. apply map_filter_lookup_None. by left.
  - apply map_filter_lookup_None. right. intros x _. exact E.
Qed.
Definition values_of (c : list (key * value)) : gmap key value := fold_left ins c ∅.
Lemma fold_ins_among c k : forall Y, (forall e, e ∈ c -> m !! e.1 = Some e.2) -> fold_left ins c Y !! k = if decide (k ∈ c.*1) then m !! k else Y !! k.
Proof.
  induction c as [|[k' x] c IH]; intros Y Hc; cbn [fold_left fmap list_fmap fst].
  - destruct (decide (k ∈ [])) as [E|]; [by apply elem_of_nil in E|done].
  - rewrite IH by (intros e He; apply Hc; by right). pose proof (Hc (k', x) ltac:(by left)) as Ex. cbn in Ex. destruct (decide (k ∈ c.*1)) as [E|E].
    + rewrite decide_True by (by right). done.
    + unfold ins. cbn. destruct (decide (k' = k)) as [->|Ne].
      * rewrite lookup_insert, decide_True by (by left). done.
      * rewrite lookup_insert_ne by done. rewrite decide_False; [done|]. intros [->|?]%elem_of_cons; done.
Qed.
Lemma fvals_filter W (K : gset key) : filter (fun e : (version * key) * option value => e.1.2 ∈ K) (fvals v W) = fvals v (filter (fun e : key * value => e.1 ∈ K) W).
Proof.
  apply map_eq. intros [w k]. apply option_eq. intros x. rewrite map_filter_lookup_Some. unfold fvals. rewrite !(lookup_kmap_Some (pair v)). cbn. split.
  - intros [(k' & [= -> ->] & E) Hk]. exists k'. split; [done|]. rewrite lookup_fmap in *. destruct (W !! k') as [y|] eqn:Ey; [|done]. by rewrite (proj2 (map_filter_lookup_Some _ _ _ _) (conj Ey Hk)).
  - intros (k' & [= -> ->] & E). rewrite lookup_fmap in E. destruct (filter _ W !! k') as [y|] eqn:Ey; [|done]. apply map_filter_lookup_Some in Ey as [Ey Hk]. split; [|done]. exists k'. split; [done|]. by rewrite lookup_fmap, Ey.
Qed.
Lemma among_step c P (K : gset key) : (forall e, e ∈ c -> m !! e.1 = Some e.2) ->
  filter (fun e : key * value => e.1 ∈ K) (values_of c) ∪ among P = among (P ∪ (list_to_set c.*1 ∩ K)).
Proof.
  intros Hc. apply map_eq. intros k. rewrite lookup_union, !among_lookup.
  assert (E : filter (fun e : key * value => e.1 ∈ K) (values_of c) !! k = if decide (k ∈ c.*1 /\ k ∈ K) then m !! k else None).
  { unfold values_of. pose proof (fold_ins_among c k ∅ Hc) as L. destruct (decide (k ∈ c.*1 /\ k ∈ K)) as [[A B]|N].
    - rewrite decide_True in L by done. destruct (m !! k) as [x|] eqn:Em; [by apply map_filter_lookup_Some|]. apply map_filter_lookup_None. by left.
    - apply map_filter_lookup_None. destruct (decide (k ∈ c.*1)) as [A|A]; [right; intros x _ B; apply N; done|left]. rewrite L. apply lookup_empty. }
  rewrite E. destruct (decide (k ∈ c.*1 /\ k ∈ K)) as [[A B]|N].
  - rewrite (decide_True (P := k ∈ P ∪ _)) by (apply elem_of_union; right; apply elem_of_intersection; split; [by apply elem_of_list_to_set|done]).
    destruct (decide (k ∈ P)); by destruct (m !! k).
  - destruct (decide (k ∈ P)) as [A|A].
    + rewrite decide_True by (apply elem_of_union; by left). by destruct (m !! k).
    + rewrite decide_False; [done|]. intros [?|[?%elem_of_list_to_set ?]%elem_of_intersection]%elem_of_union; [done|]. by apply N.
Qed.
(** pushing adds the values of the chunk to those to be written *)
Lemma push_key_fvalues rs k x rs' W : rs_version rs = v -> rs_fvalues rs = fvals v W -> push_key H rs k x = Ok rs' -> rs_version rs' = v /\ rs_fvalues rs' = fvals v (<[ k := x ]> W) /\ rs_store rs' = rs_store rs.
Proof.
  intros Ev Ef E. unfold push_key in E. match type of E with context [add_one H ?r k _] => set (r0 := r) in E end.
  destruct (add_one H r0 k (value_hash H x)) as [r1| |] eqn:E1; [rewrite bind_Ok in E|done|done]. injection E as <-. unfold add_one in E1. apply ThmOver.sim_loop in E1 as [(K1 & K2 & K3) _]. cbn.
  rewrite K1, K2, K3. cbn. split; [done|]. split; [|done]. by rewrite Ev, Ef, fvals_insert.
Qed.
Lemma push_fvalues c : forall rs rs' e W, rs_version rs = v -> rs_fvalues rs = fvals v W -> push_chunk H rs c = Ok (rs', e) -> e = None -> rs_fvalues rs' = fvals v (fold_left ins c W) /\ rs_store rs' = rs_store rs.
Proof.
  induction c as [|[k x] c IH]; intros rs rs' e W Ev Ef E ->; cbn [push_chunk] in E; [by injection E as <-|]. destruct (in_order rs k); [|done].
  destruct (push_key H rs k x) as [r1| |] eqn:E1; [rewrite bind_Ok in E|done|done]. apply (push_key_fvalues _ _ _ _ W) in E1 as (A & B & C); [|done|done].
  apply (IH _ _ _ (<[ k := x ]> W)) in E as [D F]; [|done|done|done]. split; [done|congruence].
Qed.
Lemma hobj_vals rs X Y : hobj H v m rs X Y -> vals v rs ∅ Y /\ rs_version rs = v /\ X ⊆ Y.
Proof.
  intros (_ & _ & _ & [F|[-> (k & Sy)]]).
  - destruct F as (q & k0 & x0 & Id & V & _ & Er & Ey & _). split; [done|]. split; [by apply (ri_version (proj1 Id))|]. destruct Ey as [->| ->]; [done|]. apply insert_subseteq.
    destruct Er as [Er0 _]. exact Er0.
  - destruct Sy as (_ & L & _ & V & _). split; [done|]. split; [|done]. destruct (lv_path _ _ _ _ _ _ L) as (q & c & I & _). apply (ri_version I).
Qed.
Notation as_written P := (on_values (hist1 v (among P))).
Lemma write_with s nodes W W' Y s' : write_node_batch s nodes (fvals v W) = Ok s' ->
  write_node_batch (with_values (hist1 v Y) s) nodes (fvals v W') = Ok (with_values (hist1 v (W' ∪ Y)) s').
Proof.
  unfold write_node_batch. cbn [with_values st_nodes st_overwrite st_history st_stale]. destruct (assert_ _) as [[]| |]; [rewrite !bind_Ok|done|done]. intros E. apply bind_ok in E as (h & _ & E). injection E as <-.
  by rewrite write_fvals, bind_Ok.
Qed.
Lemma write_values_only s W' Y : write_node_batch (with_values (hist1 v Y) s) ∅ (fvals v W') = Ok (with_values (hist1 v (W' ∪ Y)) s).
Proof.
  unfold write_node_batch. rewrite bool_decide_true by set_solver. rewrite orb_true_r. cbn [assert_]. rewrite bind_Ok. cbn [with_values st_nodes st_overwrite st_history st_stale]. rewrite write_fvals, bind_Ok. by rewrite (left_id_L ∅ (∪)).
Qed.
Lemma add_inv ovf rs c p rs' : add_chunk H ovf rs c p = Ok (rs', None) -> exists rs1 s', push_chunk H rs c = Ok (rs1, None) /\ rverify H ovf rs1 p = Ok tt /\ c <> [] /\
  write_node_batch (rs_store rs1) (rs_fnodes rs1) (rs_fvalues rs1) = Ok s' /\ rs' = RS s' (rs_version rs1) (rs_partial rs1) ∅ ∅ (rs_prev rs1) (rs_num rs1) (rs_root rs1).
Proof.
  unfold add_chunk. destruct c as [|e0 c]; [done|]. destruct (push_chunk H rs (e0 :: c)) as [[rs1 e]| |]; [rewrite bind_Ok|done|done]. destruct e as [e|]; [done|]. destruct (rverify H ovf rs1 p) as [[]| |] eqn:Ev; [|done|done].
  rewrite flush_eq. destruct (write_node_batch (rs_store rs1) (rs_fnodes rs1) (rs_fvalues rs1)) as [s'| |] eqn:Ew; [|done|done]. intros E. injection E as <-. by exists rs1, s'.
Qed.
Section step.
Context (ovf : bool) (rs rs' : rstate) (X Y : gmap key value) (c : list (key * value)) (p : range_proof) (P : gset key).
Hypothesis Ho : hobj H v m rs X Y.
Hypothesis Hc : forall e, e ∈ c -> m !! e.1 = Some e.2.
Hypothesis Ea : add_chunk H ovf rs c p = Ok (rs', None).
Lemma step_inv : exists rs1 s', push_chunk H rs c = Ok (rs1, None) /\ rverify H ovf rs1 p = Ok tt /\ c <> [] /\ rs_fvalues rs1 = fvals v (values_of c) /\ rs_store rs1 = rs_store rs /\
  write_node_batch (rs_store rs1) (rs_fnodes rs1) (fvals v (values_of c)) = Ok s' /\ rs' = RS s' (rs_version rs1) (rs_partial rs1) ∅ ∅ (rs_prev rs1) (rs_num rs1) (rs_root rs1).
Proof.
  destruct (add_inv _ _ _ _ _ Ea) as (rs1 & s' & E1 & E2 & E3 & E4 & E5). destruct (hobj_vals _ _ _ Ho) as ((V1 & _) & Vv & _).
  destruct (push_fvalues c rs rs1 None ∅ Vv V1 E1 eq_refl) as [F1 F2]. exists rs1, s'. rewrite F1 in E4. done.
Qed.
Lemma step_deliver : add_chunk H ovf (as_written P rs) c p = Ok (as_written (P ∪ list_to_set c.*1) rs', None).
Proof.
  destruct step_inv as (rs1 & s' & E1 & E2 & E3 & E4 & E5 & E6 & ->). unfold add_chunk. destruct c as [|e0 c']; [done|]. rewrite push_chunk_values, E1, !bind_Ok, rverify_values, E2, flush_eq.
  cbn [on_values rs_store rs_fnodes rs_fvalues rs_version rs_partial rs_prev rs_num rs_root]. rewrite E4, (write_with _ _ _ (values_of (e0 :: c')) (among P) _ E6).
  pose proof (among_step (e0 :: c') P (list_to_set (e0 :: c').*1) Hc) as Es. rewrite (intersection_idemp_L) in Es. rewrite <- Es.
  replace (filter _ (values_of (e0 :: c'))) with (values_of (e0 :: c')); [done|]. symmetry. apply map_eq. intros k. pose proof (fold_ins_among (e0 :: c') k ∅ Hc) as L. fold (values_of (e0 :: c')) in L.
  destruct (values_of (e0 :: c') !! k) as [x|] eqn:Ex.
  - apply map_filter_lookup_Some. split; [done|]. cbn [fst]. apply elem_of_list_to_set. destruct (decide (k ∈ (e0 :: c').*1)); [done|]. rewrite lookup_empty in L. done.
  - apply map_filter_lookup_None. by left.
Qed.
Lemma step_torn nodes (K : gset key) : torn_write H ovf nodes K (as_written P rs) c p =
  Ok (with_values (hist1 v (among (P ∪ (list_to_set c.*1 ∩ K)))) (rs_store (if nodes then rs' else rs))).
Proof.
  destruct step_inv as (rs1 & s' & E1 & E2 & E3 & E4 & E5 & E6 & ->). unfold torn_write. destruct c as [|e0 c']; [done|]. rewrite push_chunk_values, E1, !bind_Ok, rverify_values, E2, bind_Ok.
  cbn [on_values rs_store rs_fnodes rs_fvalues]. rewrite E4, fvals_filter, <- (among_step _ P K Hc). destruct nodes; cbn [rs_store].
  - apply (write_with _ _ _ _ _ _ E6).
  - rewrite E5. apply write_values_only.
Qed.
End step.
(** *** every step of the client with torn writes is a step of the client of C33, C34: a torn write is that write, or none, and then a crash *)
Definition follows (c : torn_client) rs X Y : Prop := hobj H v m rs X Y /\ tc_obj c = as_written (tc_written c) rs /\ tc_rest c = rest_of m X.
(** ... with every value written that the store of the other has *)
Definition all_written (c : torn_client) Y : Prop := forall k, is_Some (Y !! k) -> k ∈ tc_written c.
Lemma reopen_follows s Y P : sgood H v m s Y -> exists rs X, restore_new H (with_values (hist1 v (among P)) s) v (smt_root H m) = Ok (as_written P rs) /\
  follows (Torn (as_written P rs) (above_rightmost (with_values (hist1 v (among P)) s) m) P) rs X Y.
Proof.
  intros G. destruct (reopen_hobj H v m s Y G) as (rs1 & X1 & E1 & Ho1 & Ea & _). exists rs1, X1. rewrite restore_new_values, E1, bind_Ok. split; [done|]. split; [done|]. split; [done|]. exact Ea.
Qed.
Lemma tdeliver_ok ovf src vs evs : nb H (H <$> m) -> source_ok H m src vs -> forall c rs X Y, follows c rs X Y -> exists c' rs' X' Y',
  tdeliver H ovf src vs m v (smt_root H m) evs c = Ok c' /\ follows c' rs' X' Y' /\
  ((forall n nodes K, TTorn n nodes K ∈ evs -> nodes = false) -> all_written c Y -> all_written c' Y').
Proof.
  intros NB So. induction evs as [|[n| |n nodes K] evs IH]; intros c rs X Y F.
  - by exists c, rs, X, Y.
  - cbn [tdeliver]. pose proof F as (Ho & Eo & Er). rewrite Er. destruct (last (take (n + 1) (rest_of m X))) as [[k x]|] eqn:El.
    2:{ destruct (IH _ _ _ _ F) as (c' & rs' & X' & Y' & E' & F' & A'). exists c', rs', X', Y'. split; [done|]. split; [done|]. intros Hn. apply A'. intros ? ? ? ?. eapply Hn. by right. }
    assert (Cm : forall e, e ∈ take (n + 1) (rest_of m X) -> m !! e.1 = Some e.2). { intros [k1 x1] He. apply (rest_elem m X k1 x1). rewrite <- (take_drop (n + 1) (rest_of m X)). apply elem_of_app. by left. }
    assert (Em : m !! k = Some x). { apply last_Some in El as [l' El]. apply (Cm (k, x)). rewrite El. apply elem_of_app. right. by left. }
    destruct (So k x Em) as (p & j & -> & T & Es). rewrite bind_Ok.
    destruct (add_honest H v m ovf rs X Y _ (drop (n + 1) (rest_of m X)) k x p j NB Ho (eq_sym (take_drop _ _)) El T Es) as (rs1 & X1 & E1 & Ho1 & Er1).
    rewrite Eo, (step_deliver ovf rs rs1 X Y _ p (tc_written c) Ho Cm E1), bind_Ok.
    destruct (IH (Torn (as_written (tc_written c ∪ list_to_set (take (n + 1) (rest_of m X)).*1) rs1) (drop (n + 1) (rest_of m X)) (tc_written c ∪ list_to_set (take (n + 1) (rest_of m X)).*1)) rs1 X1 X1)
      as (c' & rs' & X' & Y' & E' & F' & A'); [by split|]. exists c', rs', X', Y'. split; [done|]. split; [done|].
    intros Hn Aw. apply A'; [intros ? ? ? ?; eapply Hn; by right|]. intros k1 Hk1. cbn [tc_written]. apply elem_of_union. destruct (hobj_vals _ _ _ Ho) as (_ & _ & S). destruct (X !! k1) as [y|] eqn:Ex.
    + left. apply Aw. exists y. by eapply lookup_weaken.
    + right. apply elem_of_list_to_set. destruct Hk1 as [y Hy].
      assert (Z : (k1, y) ∈ rest_of m X). { apply rest_elem. split; [|done]. by apply (lookup_weaken X1 m k1 y Hy), (proj1 (proj1 (proj2 (proj2 Ho1)))). }
      rewrite <- (take_drop (n + 1) (rest_of m X)) in Z. apply elem_of_app in Z as [Z|Z]; [apply elem_of_list_fmap; by exists (k1, y)|]. rewrite <- Er1 in Z. apply rest_elem in Z as [_ Z]. congruence.
  - cbn [tdeliver]. pose proof F as (Ho & Eo & Er). pose proof Ho as (_ & G & _). destruct (reopen_follows _ Y (tc_written c) G) as (rs1 & X1 & E1 & F1). rewrite Eo. cbn [on_values rs_store]. rewrite E1, bind_Ok.
    destruct (IH _ _ _ _ F1) as (c' & rs' & X' & Y' & E' & F' & A'). exists c', rs', X', Y'. split; [done|]. split; [done|]. intros Hn Aw. apply A'; [intros ? ? ? ?; eapply Hn; by right|exact Aw].
  - cbn [tdeliver]. pose proof F as (Ho & Eo & Er). rewrite Er. destruct (last (take (n + 1) (rest_of m X))) as [[k x]|] eqn:El.
    2:{ destruct (IH _ _ _ _ F) as (c' & rs' & X' & Y' & E' & F' & A'). exists c', rs', X', Y'. split; [done|]. split; [done|]. intros Hn. apply A'. intros ? ? ? ?. eapply Hn. by right. }
    assert (Cm : forall e, e ∈ take (n + 1) (rest_of m X) -> m !! e.1 = Some e.2). { intros [k1 x1] He. apply (rest_elem m X k1 x1). rewrite <- (take_drop (n + 1) (rest_of m X)). apply elem_of_app. by left. }
    assert (Em : m !! k = Some x). { apply last_Some in El as [l' El]. apply (Cm (k, x)). rewrite El. apply elem_of_app. right. by left. }
    destruct (So k x Em) as (p & j & -> & T & Es). rewrite bind_Ok.
    destruct (add_honest H v m ovf rs X Y _ (drop (n + 1) (rest_of m X)) k x p j NB Ho (eq_sym (take_drop _ _)) El T Es) as (rs1 & X1 & E1 & Ho1 & Er1).
    rewrite Eo, (step_torn ovf rs rs1 X Y _ p (tc_written c) Ho Cm E1 nodes K), bind_Ok. set (P := tc_written c ∪ _).
    assert (G : exists Y1, sgood H v m (rs_store (if nodes then rs1 else rs)) Y1 /\ (nodes = false -> Y1 = Y)). { destruct nodes; [exists X1|exists Y]; (split; [|done]); [apply Ho1|apply Ho]. }
    destruct G as (Y1 & G & Ny). destruct (reopen_follows _ Y1 P G) as (rs2 & X2 & E2 & F2). rewrite E2, bind_Ok.
    destruct (IH _ _ _ _ F2) as (c' & rs' & X' & Y' & E' & F' & A'). exists c', rs', X', Y'. split; [done|]. split; [done|]. intros Hn Aw. apply A'; [intros ? ? ? ?; eapply Hn; by right|].
    rewrite (Ny (Hn n nodes K ltac:(by left))). intros k1 Hk1. apply elem_of_union. left. by apply Aw.
Qed.
Lemma finish_values rs Y s : rs_fvalues rs = fvals v ∅ -> finish H rs = Ok s -> finish H (on_values (hist1 v Y) rs) = Ok (with_values (hist1 v Y) s).
Proof.
  intros Fv E. assert (F0 : forall (Z : gmap key value), ∅ ∪ Z = Z) by (intros Z; apply (left_id_L ∅ (∪))). unfold finish in *. cbn [on_values rs_partial rs_fnodes rs_fvalues rs_version rs_store].
  match type of E with match ?a with _ => _ end = _ => destruct a as [l|] end.
  - destruct (assert_ _) as [[]| |]; [|done|done]. rewrite bind_Ok in *.
    assert (Fe : (∅ : gmap (version * key) (option value)) = fvals v ∅) by (unfold fvals; by rewrite fmap_empty, kmap_empty). rewrite Fe in E |- *.
    rewrite (write_with _ _ _ ∅ Y _ E). by rewrite F0.
  - rewrite rfreeze_values. destruct (rfreeze H rs 0) as [rs1| |] eqn:Ef; [rewrite !bind_Ok in *|done|done]. apply ThmOver.sim_freeze in Ef as [(_ & K2 & _) _]. rewrite Fv in K2. rewrite K2 in E.
    cbn [on_values rs_fnodes rs_fvalues rs_store]. rewrite K2, (write_with _ _ _ ∅ Y _ E). by rewrite F0.
Qed.
Lemma finish_follows c rs X Y : m <> ∅ -> follows c rs X Y -> tc_rest c = [] -> exists s, finish H (tc_obj c) = Ok s /\ complete H v s (H <$> m) /\ st_history s = hist1 v (among (tc_written c)) /\ Y = m.
Proof.
  intros Nm (Ho & Eo & Er) En. rewrite Er in En. destruct (finish_honest H v m rs X Y Nm Ho En) as (s & Ef & C & _). destruct (hobj_vals _ _ _ Ho) as ((V1 & _) & _ & S).
  exists (with_values (hist1 v (among (tc_written c))) s). rewrite Eo. split; [by apply finish_values|]. split; [exact C|]. split; [done|].
  destruct Ho as (_ & G & B & [F|[-> _]]); [|by apply below_all]. destruct F as (q & k0 & x0 & _ & _ & _ & [_ [Me|[d Er0]]] & _); [done|congruence].
Qed.
End run.

Section thm.
Context (H : list byte -> bytes32).
Lemma tdeliver_all_ok ovf ops st xs vs v root evs : run H ops = Ok (st, xs) -> readable ops vs -> get_root_hash H (store_reader st) vs = Ok root -> let m := contents_at (history ops) vs in
  hash_broken H (root_inputs H m) \/ exists c rs X Y, tdeliver_all H ovf (store_reader st) vs m v root evs = Ok c /\ follows H v m c rs X Y /\
  ((forall n nodes K, TTorn n nodes K ∈ evs -> nodes = false) -> all_written c Y).
Proof.
  intros R L Er m. destruct (read_root H ops st xs vs R L) as [Er' _]. fold m in Er'. rewrite Er' in Er. apply Ok_inj in Er. subst root.
  destruct (nb_dec H (H <$> m)) as [NB|(x & Hx & Ex)]; [|left; right; exists x; split; [by apply ms_in_root|done]]. right.
  destruct (start_hobj H v m) as (rs0 & E0 & Ho & _). unfold tdeliver_all. rewrite E0, bind_Ok, <- (rest_empty m).
  assert (F : follows H v m (Torn rs0 (rest_of m ∅) ∅) rs0 ∅ ∅).
  { split; [done|]. split; [|done]. cbn [tc_obj tc_written]. unfold on_values, with_values.
    assert (A : among m ∅ = ∅) by (apply map_eq; intros k; rewrite (among_lookup m), lookup_empty, decide_False; [done|by intros ?%elem_of_empty]). rewrite A.
    unfold hist1. rewrite fmap_empty. destruct (hobj_vals H v m _ _ _ Ho) as ((_ & Vh) & _). unfold hist1 in Vh. rewrite fmap_empty in Vh. destruct rs0 as [[n1 n2 n3 n4] ? ? ? ? ? ? ?]. cbn in *. by rewrite Vh. }
  destruct (tdeliver_ok H v m ovf (store_reader st) vs evs NB (source_run H ops st xs vs R L) _ _ _ _ F) as (c & rs & X & Y & E & F' & A). exists c, rs, X, Y. split; [done|]. split; [done|].
  intros Hn. apply A; [done|]. intros k [y Hy]. rewrite lookup_empty in Hy. done.
Qed.
Lemma torn_same (m : gmap key value) s v ops st xs vs root (P : gset key) : run H ops = Ok (st, xs) -> readable ops vs -> get_root_hash H (store_reader st) vs = Ok root -> contents_at (history ops) vs = m -> m <> ∅ ->
  complete H v s (H <$> m) -> st_history s = hist1 v (among m P) ->
  get_root_hash H (store_reader s) v = Ok root /\ get_leaf_count (store_reader s) v = Ok (size m) /\
  forall k, (k ∈ P -> get (store_reader s) k v = get (store_reader st) k vs /\ get_with_proof H (store_reader s) k v = get_with_proof H (store_reader st) k vs) /\
            (k ∉ P -> get (store_reader s) k v = Ok None /\ (is_Some (m !! k) -> exists e, get_with_proof H (store_reader s) k v = Err e) /\
                      (m !! k = None -> get_with_proof H (store_reader s) k v = get_with_proof H (store_reader st) k vs)).
Proof.
  intros R L Er Em Nm C Eh. set (s0 := with_values (hist1 v m) s).
  assert (Sm : same_tree H s0 v st vs) by (eapply (restored_same H m); try done). destruct Sm as (S1 & S2 & S3 & S4).
  split; [rewrite <- Er; exact S1|]. split. { change (get_leaf_count (store_reader s) v) with (get_leaf_count (store_reader s0) v). rewrite S2. destruct (read_root H ops st xs vs R L) as (_ & _ & El). by rewrite Em in El. }
  assert (V0 : forall k, store_value s0 v k = m !! k) by (intros k; rewrite (hist1_value v s0 m k v eq_refl); by rewrite N.leb_refl).
  assert (V1 : forall k, store_value s v k = if decide (k ∈ P) then m !! k else None) by (intros k; rewrite (hist1_value v s _ k v Eh), N.leb_refl; apply among_lookup).
  assert (G : forall k, get_with_proof H (store_reader s) k v = ('(x, p) ← get_with_proof H (store_reader s0) k v; match x with Some _ => y ← rd_get_value (store_reader s) v k; Ok (Some y, p) | None => Ok (None, p) end)).
  { intros k. unfold get_with_proof. apply (gwp_values H (fun nk => st_nodes s !! nk) (store_rightmost s0) (store_rightmost s) (store_value s0) (store_value s) k v).
    rewrite V0, V1. intros ->. by destruct (decide (k ∈ P)). }
  assert (Q : forall k, exists p, get_with_proof H (store_reader s0) k v = Ok (m !! k, p)).
  { intros k. rewrite S4. destruct (read_proof H ops st xs vs k R L) as (n & _ & ->). rewrite Em. eauto. }
  intros k. destruct (Q k) as [p Ep]. specialize (G k). rewrite <- (S3 k), <- (S4 k). rewrite Ep, bind_Ok in G. unfold get. cbn [store_reader rd_value]. rewrite V0, V1. unfold rd_get_value in G. cbn [store_reader rd_value] in G. rewrite V1 in G. split; intros Hk.
  - rewrite decide_True by done. split; [done|]. rewrite decide_True in G by done. rewrite Ep, G. by destruct (m !! k).
  - rewrite decide_False by done. split; [done|]. rewrite decide_False in G by done. split.
    + intros [x Hx]. rewrite Hx in G. rewrite G. cbn. eauto.
    + intros Hx. rewrite Hx in G. by rewrite G, Ep, Hx.
Qed.

(** *** C103: a torn write that stores the nodes without the values is not noticed: whatever the sizes of the chunks, wherever the crashes and whichever values the torn writes
    store, every chunk is accepted, and once the client has nothing left to deliver [finish] succeeds with the expected root hash and number of leaves; the keys of which
    a value was written read as the original, with their proofs; the others read as absent by [get] and fail in [get_with_proof]. *)
Theorem C103_torn_writes (ovf : bool) (ops : list op) st xs (vs v : version) (root : hash) (evs : list tevent) :
  run H ops = Ok (st, xs) -> readable ops vs -> get_root_hash H (store_reader st) vs = Ok root -> let m := contents_at (history ops) vs in m <> ∅ ->
  hash_broken H (root_inputs H m) \/
  exists c, tdeliver_all H ovf (store_reader st) vs m v root evs = Ok c /\
    (tc_rest c = [] -> exists s, finish H (tc_obj c) = Ok s /\ get_root_hash H (store_reader s) v = Ok root /\ get_leaf_count (store_reader s) v = Ok (size m) /\
      forall k, (k ∈ tc_written c -> get (store_reader s) k v = get (store_reader st) k vs /\ get_with_proof H (store_reader s) k v = get_with_proof H (store_reader st) k vs) /\
                (k ∉ tc_written c -> get (store_reader s) k v = Ok None /\ (is_Some (m !! k) -> exists e, get_with_proof H (store_reader s) k v = Err e) /\
                   (m !! k = None -> get_with_proof H (store_reader s) k v = get_with_proof H (store_reader st) k vs))).
Proof.
  intros R L Er m Nm. destruct (tdeliver_all_ok ovf ops st xs vs v root evs R L Er) as [B|(c & rs & X & Y & E & F & _)]; [by left|right]. fold m in E, F.
  exists c. split; [done|]. intros En. destruct (finish_follows H v m c rs X Y Nm F En) as (s & Ef & C & Eh & _). exists s. split; [done|]. by eapply (torn_same m).
Qed.
(** ... and one that stores values, but no node without all of the values, loses nothing. *)
Theorem C103_values_first (ovf : bool) (ops : list op) st xs (vs v : version) (root : hash) (evs : list tevent) :
  run H ops = Ok (st, xs) -> readable ops vs -> get_root_hash H (store_reader st) vs = Ok root -> let m := contents_at (history ops) vs in m <> ∅ ->
  (forall n nodes kept, TTorn n nodes kept ∈ evs -> nodes = false) ->
  hash_broken H (root_inputs H m) \/
  exists c, tdeliver_all H ovf (store_reader st) vs m v root evs = Ok c /\
    (tc_rest c = [] -> exists s, finish H (tc_obj c) = Ok s /\ same_tree H s v st vs).
Proof.
  intros R L Er m Nm Hn. destruct (tdeliver_all_ok ovf ops st xs vs v root evs R L Er) as [B|(c & rs & X & Y & E & F & A)]; [by left|right]. fold m in E, F.
  exists c. split; [done|]. intros En. destruct (finish_follows H v m c rs X Y Nm F En) as (s & Ef & C & Eh & Ey). exists s. split; [done|]. eapply (restored_same H m); try done.
  rewrite Eh. f_equal. apply map_eq. intros k. rewrite among_lookup. destruct (m !! k) as [x|] eqn:Ex; [|by destruct (decide _)]. rewrite decide_True; [done|]. apply (A Hn). rewrite Ey. eauto.
Qed.
Lemma tdeliver_app ovf src vs m v root e1 e2 : forall c, tdeliver H ovf src vs m v root (e1 ++ e2) c = (c ← tdeliver H ovf src vs m v root e1 c; tdeliver H ovf src vs m v root e2 c).
Proof.
  induction e1 as [|[n| |n nodes K] e1 IH]; intros c; cbn [app tdeliver]; [done| | |].
  - destruct (last (take (n + 1) (tc_rest c))) as [[k x]|]; [|apply IH]. destruct (get_range_proof H src k vs) as [p| |]; [rewrite !bind_Ok|done|done].
    destruct (add_chunk H ovf (tc_obj c) _ p) as [[rs' [e|]]| |]; [done|rewrite !bind_Ok; apply IH|done|done].
  - destruct (restore_new H _ v root) as [rs'| |]; [rewrite !bind_Ok; apply IH|done|done].
  - destruct (last (take (n + 1) (tc_rest c))) as [[k x]|]; [|apply IH]. destruct (get_range_proof H src k vs) as [p| |]; [rewrite !bind_Ok|done|done].
    destruct (torn_write H ovf nodes K (tc_obj c) _ p) as [s'| |]; [rewrite !bind_Ok|done|done]. destruct (restore_new H s' v root) as [rs'| |]; [rewrite !bind_Ok; apply IH|done|done].
Qed.
(** From every such point all that is left can be delivered. *)
Theorem C103_completes (ovf : bool) (ops : list op) st xs (vs v : version) (root : hash) (evs : list tevent) :
  run H ops = Ok (st, xs) -> readable ops vs -> get_root_hash H (store_reader st) vs = Ok root -> let m := contents_at (history ops) vs in m <> ∅ ->
  hash_broken H (root_inputs H m) \/
  exists c s, tdeliver_all H ovf (store_reader st) vs m v root (evs ++ [TDeliver (size m)]) = Ok c /\ tc_rest c = [] /\ finish H (tc_obj c) = Ok s.
Proof.
  intros R L Er m Nm. destruct (tdeliver_all_ok ovf ops st xs vs v root evs R L Er) as [B|(c & rs & X & Y & E & F & _)]; [by left|]. fold m in E, F.
  destruct (tdeliver_all_ok ovf ops st xs vs v root (evs ++ [TDeliver (size m)]) R L Er) as [B|(c' & rs' & X' & Y' & E' & F' & _)]; [by left|right]. fold m in E', F'.
  assert (Z : tc_rest c' = []).
  { revert E'. unfold tdeliver_all in *. destruct (restore_new H store_empty v root) as [rs0| |]; [|done|done]. rewrite bind_Ok in *. rewrite tdeliver_app, E, bind_Ok. cbn [tdeliver].
    assert (Le : length (tc_rest c) <= size m). { rewrite (proj2 (proj2 F)). unfold rest_of. etrans; [apply filter_length|]. by rewrite entries_length. }
    rewrite take_ge by lia. rewrite drop_ge by lia. destruct (last (tc_rest c)) as [[k x]|] eqn:El.
    - destruct (get_range_proof H (store_reader st) k vs) as [p| |]; [rewrite bind_Ok|done|done]. destruct (add_chunk H ovf (tc_obj c) (tc_rest c) p) as [[rs1 [e|]]| |]; [done| |done|done].
      rewrite bind_Ok. intros W. apply Ok_inj in W. by subst c'.
    - apply last_None in El. intros W. apply Ok_inj in W. by subst c'. }
  destruct (finish_follows H v m c' rs' X' Y' Nm F' Z) as (s & Ef & _). by exists c', s.
Qed.
End thm.

(** *** Applied to the last version of the demo history, with the hash function of Toy.v, by computation: the first chunk is torn, with its nodes but none of its values; the
    rest is delivered.  [finish] succeeds, and the first value is lost.  With the values and no node, or with all of both, nothing is lost. *)
Definition torn_reads (evs : list tevent) : option (bool * list (option value)) :=
  match run toy [Commit [ (fun e => (e.1, Some e.2)) <$> entries demo_map ] ] with
  | Ok (st, _) =>
      match tdeliver_all toy true (store_reader st) 0 demo_map 9 (smt_root toy demo_map) evs with
      | Ok c =>
          match tc_rest c, finish toy (tc_obj c) with
          | [], Ok s => Some (match get_root_hash toy (store_reader s) 9 with Ok r => bool_decide (r = (smt_root toy demo_map)) | _ => false end, (fun k => store_value s 9 k) <$> [K00; K80; KC0])
          | _, _ => None
          end
      | _ => None
      end
  | _ => None
  end.
Theorem C103_lost : torn_reads [TTorn 1 true ∅; TDeliver 3] = Some (true, [None; Some va; Some vc]) /\
  torn_reads [TTorn 1 true {[ K00 ]}; TDeliver 3] = Some (true, [Some vb; Some va; Some vc]) /\
  torn_reads [TTorn 1 false {[ K80 ]}; TDeliver 0; TTorn 0 true ∅; TDeliver 3] = Some (true, [Some vb; Some va; Some vc]) /\
  torn_reads [TDeliver 0; TTorn 1 true {[ KC0 ]}; TDeliver 3] = Some (true, [Some vb; None; Some vc]) /\
  torn_reads [TTorn 1 false {[ K80 ]}; TDeliver 0; TTorn 1 false {[ KC0 ]}; TDeliver 3] = Some (true, [Some vb; Some va; Some vc]).
Proof. vm_compute. repeat split; reflexivity. Qed.
(** The theorem applied to such a run of the demo history, for every hash function. *)
Theorem demo_torn (H : list byte -> bytes32) ovf st xs root v : run H demo = Ok (st, xs) -> get_root_hash H (store_reader st) 4 = Ok root ->
  hash_broken H (root_inputs H demo_map) \/
  exists c s, tdeliver_all H ovf (store_reader st) 4 demo_map v root [TTorn 1 true {[ K00 ]}; TCrash; TTorn 0 false ∅; TDeliver 3] = Ok c /\ tc_rest c = [] /\ finish H (tc_obj c) = Ok s.
Proof.
  intros R Er. pose proof demo_contents as (_ & _ & _ & _ & Ec).
  pose proof (C103_completes H ovf demo st xs 4 v root [TTorn 1 true {[ K00 ]}; TCrash; TTorn 0 false ∅] R) as T.
  rewrite Ec in T. apply T; [apply demo_readable|done|]. apply (bool_decide_eq_true_1 _). vm_compute. reflexivity.
Qed.

(** *** Part of the nodes only (computed).  [partly kept all]: the torn write of the whole chunk stores of its nodes those with the paths in [kept], and its values; the restore is reopened and what is
    above the rightmost stored leaf is delivered, with an honest proof.  [Some None]: rejected, or a panic, or [finish] failed; else whether [finish] gives the expected root hash, and which keys are read with their proofs. *)
Definition partial_write (kept : list (list nibble)) (rs : rstate) (chunk : list (key * value)) (p : range_proof) : outcome store :=
  '(rs, e) ← push_chunk toy rs chunk;
  match e with
  | Some e => Err e
  | None => _ ← rverify toy true rs p; write_node_batch (rs_store rs) (filter (fun e => bool_decide (e.1.2 ∈ kept) = true) (rs_fnodes rs)) (rs_fvalues rs)
  end.
Definition partly (ow : bool) (kept : list (list nibble)) (chunk : nat) : option (option (bool * list bool)) :=
  match run toy [Commit [ [(K80, Some va); (K81, Some vb); (K8F, Some va); (K90, Some vc)] ] ], restore_new toy (mkStore ∅ ∅ ∅ ow) 9 (smt_root toy deep) with
  | Ok (st, _), Ok rs =>
      let src := store_reader st in
      let first := take chunk (entries deep) in
      match last first with
      | None => None
      | Some (k, _) =>
          match (p ← get_range_proof toy src k 0; partial_write kept rs first p) with
          | Ok s =>
              Some (match (rs ← restore_new toy s 9 (smt_root toy deep);
                           let rest := above_rightmost s deep in
                           match last rest with
                           | None => finish toy rs
                           | Some (k, _) => p ← get_range_proof toy src k 0; '(rs, e) ← add_chunk toy true rs rest p; match e with Some e => Err e | None => finish toy rs end
                           end) with
                    | Ok s' => Some (match get_root_hash toy (store_reader s') 9 with Ok r => bool_decide (r = smt_root toy deep) | _ => false end,
                                     (fun k => match get_with_proof toy (store_reader s') k 9 with Ok (x, p) => bool_decide (x = deep !! k) | _ => false end) <$> [K80; K81; K8F; K90])
                    | _ => None
                    end)
          | _ => None
          end
      end
  | _, _ => None
  end.
Definition p8 (n : N) : list nibble := [nib_of_N 8; nib_of_N n].
(** What decides is the order: a subtree written from its leaves up and from left to right is complete below each node, and all is well, from the first leaf on; a node without what is below it is believed (its subtree is
    lost, under the expected root hash); a leaf without its left neighbours makes the honest rest be refused for ever,
    and so does a node above the part that is stored (without a leaf, the restore starts again and MockTreeStore, unless it is to overwrite, [ow], refuses to write the node a second time). *)
Theorem C103_partial_nodes :
  partly false [] 4 = Some (Some (true, [true; true; true; true])) /\ partly false [p8 0] 4 = Some (Some (true, [true; true; true; true])) /\ partly false [p8 0; p8 1] 4 = Some (Some (true, [true; true; true; true])) /\
  partly false [p8 0; p8 1; p8 15] 4 = Some (Some (true, [true; true; true; true])) /\ partly false [p8 0; p8 1; p8 15; [nib_of_N 8]] 4 = Some (Some (true, [true; true; true; true])) /\
  partly false [[nib_of_N 8]; p8 15] 4 = Some (Some (true, [false; false; true; true])) /\ partly false [p8 15] 4 = Some None /\ partly false [p8 1] 4 = Some None /\
  partly false [[nib_of_N 8]; p8 0] 4 = Some None /\ partly false [[nib_of_N 8]] 4 = Some None /\ partly true [[nib_of_N 8]] 4 = Some (Some (true, [true; true; true; true])).
Proof. vm_compute. repeat split; reflexivity. Qed.
