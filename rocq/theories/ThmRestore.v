(** C33 - C36: restoring a tree from chunks.  The clients [deliver_all] and [client_run] are defined in RestoreDriver.v. *)
From Coq Require Import Strings.String.
From Verif Require Import Base Spec SpecOrder SpecRange NodeType ProofDef TreeCache Tree Mock Driver Restore KeyFacts SmtFacts ProofFacts Canon PutFacts KeyOrder OrderFacts ValueFacts ReadFacts DriverFacts ThmProof ThmStore ThmStore2 Demo RangeFacts ThmRange
  RestoreFacts RestoreFacts2 RestoreVerify RestoreTop RestoreRec RestoreDriver RestoreRun.
From Coq Require Import Lia.
Local Opaque Spec.smt root_inputs ms_in.

(** What a reader sees of the tree of version [v] in the store [s]: that of version [vs] in [st]. *)
Definition same_tree (H : list byte -> bytes32) (s : store) (v : version) (st : store) (vs : version) : Prop :=
  get_root_hash H (store_reader s) v = get_root_hash H (store_reader st) vs /\
  get_leaf_count (store_reader s) v = get_leaf_count (store_reader st) vs /\
  (forall k, get (store_reader s) k v = get (store_reader st) k vs) /\
  (forall k, get_with_proof H (store_reader s) k v = get_with_proof H (store_reader st) k vs).

Section thm.
Context (H : list byte -> bytes32).

Lemma source_run ops st xs vs : run H ops = Ok (st, xs) -> readable ops vs -> source_ok H (contents_at (history ops) vs) (store_reader st) vs.
Proof.
  intros R L k x E. set (m := contents_at (history ops) vs) in *. destruct (read_proof H ops st xs vs k R L) as (n & T & Ep). fold m in Ep, T. pose proof T as (Hn & _).
  unfold get_range_proof. rewrite Ep, E, bind_Ok. cbn [ensure_]. rewrite bind_Ok. eexists _, n. split; [reflexivity|]. split; [done|].
  cbn [right_siblings]. by rewrite hproof_sibs, rev_involutive, turns_keys.
Qed.
Lemma restored_same (m : gmap key value) s v ops st xs vs : run H ops = Ok (st, xs) -> readable ops vs -> contents_at (history ops) vs = m -> m <> ∅ ->
  complete H v s (H <$> m) -> st_history s = hist1 v m -> same_tree H s v st vs.
Proof.
  intros R L Em Nm C Eh. destruct (read_root H ops st xs vs R L) as (Er & _ & El). rewrite Em in Er, El.
  assert (K : stored H (store_reader s) (H <$> m) (fun _ => v) v). { apply complete_stored; [|done]. intros X. apply Nm. by apply fmap_empty_inv in X. }
  assert (Hv : forall k, rd_value (store_reader s) v k = m !! k). { intros k. cbn. rewrite (hist1_value v s m k v Eh). by rewrite N.leb_refl. }
  split; [|split; [|split]].
  - rewrite Er. destruct (get_root_hash_canon H _ _ _ _ K) as [-> _]. by rewrite ms_nil.
  - rewrite El, (get_leaf_count_canon H _ _ _ _ K). by rewrite map_size_fmap.
  - intros k. rewrite (C01_get H ops st xs k vs R), Em. unfold get. by rewrite Hv.
  - intros k. destruct (get_with_proof_canon H _ m _ k v K Hv) as (n & T & ->). destruct (read_proof H ops st xs vs k R L) as (n' & T' & E'). rewrite Em in T', E'. rewrite E'.
    by rewrite (term_unique _ _ _ _ T T').
Qed.
Lemma start_hobj v m : exists rs, restore_new H store_empty v (smt_root H m) = Ok rs /\ hobj H v m rs ∅ ∅ /\ rs_prev rs = None.
Proof.
  destruct (reopen_hobj H v m store_empty ∅) as (rs & X & E & Ho & _ & Ex & _); [left; done|]. exists rs. split; [done|]. rewrite rightmost_none in Ex by done. subst X. split; [done|].
  apply restore_new_prev in E as [-> _]. by rewrite rightmost_none.
Qed.
Lemma deliver_all_ok ovf ops st xs vs v root evs : run H ops = Ok (st, xs) -> readable ops vs -> get_root_hash H (store_reader st) vs = Ok root -> let m := contents_at (history ops) vs in
  hash_broken H (root_inputs H m) \/ exists rs X Y, deliver_all H ovf (store_reader st) vs m v root evs = Ok (rs, rest_of m X) /\ hobj H v m rs X Y.
Proof.
  intros R L Er m. destruct (read_root H ops st xs vs R L) as [Er' _]. fold m in Er'. rewrite Er' in Er. apply Ok_inj in Er. subst root.
  destruct (nb_dec H (H <$> m)) as [NB|(x & Hx & Ex)]; [|left; right; exists x; split; [by apply ms_in_root|done]]. right.
  destruct (start_hobj v m) as (rs0 & E0 & Ho & _). unfold deliver_all. rewrite E0, bind_Ok, <- rest_empty. eapply deliver_ok; [done|by eapply source_run|done].
Qed.

(** *** C33, C34: whatever the sizes of the chunks and wherever the crashes between them, every chunk is accepted, and once all entries
    have been delivered, [finish] leaves in the store a tree that reads as the original.  (Were the hash function to map an input
    of the original tree to the placeholder hash, or two of them to the same hash, the first disjunct would hold.) *)
Theorem C33_C34_restore (ovf : bool) (ops : list op) st xs (vs v : version) (root : hash) (evs : list event) :
  run H ops = Ok (st, xs) -> readable ops vs -> get_root_hash H (store_reader st) vs = Ok root -> let m := contents_at (history ops) vs in m <> ∅ ->
  hash_broken H (root_inputs H m) \/
  exists rs rest, deliver_all H ovf (store_reader st) vs m v root evs = Ok (rs, rest) /\
    (rest = [] -> exists s, finish H rs = Ok s /\ same_tree H s v st vs).
Proof.
  intros R L Er m Nm. destruct (deliver_all_ok ovf ops st xs vs v root evs R L Er) as [B|(rs & X & Y & E & Ho)]; [by left|right]. fold m in E, Ho.
  exists rs, (rest_of m X). split; [done|]. intros Ee. destruct (finish_honest H v m rs X Y Nm Ho Ee) as (s & Ef & C & Eh). exists s. split; [done|]. by eapply (restored_same m).
Qed.
Lemma deliver_app ovf src vs m v root e1 e2 : forall rs rest, deliver H ovf src vs m v root (e1 ++ e2) rs rest =
  ('(rs, rest) ← deliver H ovf src vs m v root e1 rs rest; deliver H ovf src vs m v root e2 rs rest).
Proof.
  induction e1 as [|[n|] e1 IH]; intros rs rest; cbn [app deliver]; [done| |].
  - destruct (last (take (n + 1) rest)) as [[k x]|]; [|apply IH]. destruct (get_range_proof H src k vs) as [p| |]; [rewrite !bind_Ok|done|done].
    destruct (add_chunk H ovf rs (take (n + 1) rest) p) as [[rs' [e|]]| |]; [done| |done|done]. rewrite !bind_Ok. apply IH.
  - destruct (restore_new H (rs_store rs) v root) as [rs'| |]; [rewrite !bind_Ok; apply IH|done|done].
Qed.
(** ... and from every such point the restore can be completed: deliver all that is left. *)
Theorem C34_restore_completes (ovf : bool) (ops : list op) st xs (vs v : version) (root : hash) (evs : list event) :
  run H ops = Ok (st, xs) -> readable ops vs -> get_root_hash H (store_reader st) vs = Ok root -> let m := contents_at (history ops) vs in m <> ∅ ->
  hash_broken H (root_inputs H m) \/
  exists rs s, deliver_all H ovf (store_reader st) vs m v root (evs ++ [Deliver (size m)]) = Ok (rs, []) /\ finish H rs = Ok s /\ same_tree H s v st vs.
Proof.
  intros R L Er m Nm. destruct (deliver_all_ok ovf ops st xs vs v root evs R L Er) as [B|(rs & X & Y & E & Ho)]; [by left|]. fold m in E, Ho.
  destruct (C33_C34_restore ovf ops st xs vs v root (evs ++ [Deliver (size m)]) R L Er Nm) as [B|(rs' & rest & E' & F)]; [by left|right]. fold m in E', F.
  assert (Z : rest = []).
  { revert E'. unfold deliver_all in *. destruct (restore_new H store_empty v root) as [rs0| |]; [|done|done]. rewrite bind_Ok in *. rewrite deliver_app, E, bind_Ok. cbn [deliver].
    assert (Le : length (rest_of m X) <= size m). { unfold rest_of. etrans; [apply filter_length|]. by rewrite entries_length. }
    rewrite take_ge by lia. rewrite drop_ge by lia. destruct (last (rest_of m X)) as [[k x]|] eqn:El.
    - destruct (get_range_proof H (store_reader st) k vs) as [p| |]; [rewrite bind_Ok|done|done]. destruct (add_chunk H ovf rs (rest_of m X) p) as [[rs1 [e|]]| |]; [done| |done|done].
      rewrite bind_Ok. by intros [= _ <-].
    - apply last_None in El. rewrite El. by intros [= _ <-]. }
  subst rest. destruct (F eq_refl) as (s & Ef & Sm). by exists rs', s.
Qed.
(** ... and the nodes and values in the store do not depend on the chunks or crashes. *)
Theorem C34_same_store (ovf1 ovf2 : bool) (ops : list op) st xs (vs v : version) (root : hash) (evs1 evs2 : list event) rs1 rs2 s1 s2 :
  run H ops = Ok (st, xs) -> readable ops vs -> get_root_hash H (store_reader st) vs = Ok root -> let m := contents_at (history ops) vs in m <> ∅ ->
  deliver_all H ovf1 (store_reader st) vs m v root evs1 = Ok (rs1, []) -> finish H rs1 = Ok s1 ->
  deliver_all H ovf2 (store_reader st) vs m v root evs2 = Ok (rs2, []) -> finish H rs2 = Ok s2 ->
  hash_broken H (root_inputs H m) \/ st_nodes s1 = st_nodes s2 /\ st_history s1 = st_history s2.
Proof.
  intros R L Er m Nm D1 F1 D2 F2.
  destruct (deliver_all_ok ovf1 ops st xs vs v root evs1 R L Er) as [B|(r1 & X1 & Y1 & E1 & Ho1)]; [by left|].
  destruct (deliver_all_ok ovf2 ops st xs vs v root evs2 R L Er) as [B|(r2 & X2 & Y2 & E2 & Ho2)]; [by left|]. fold m in E1, E2, Ho1, Ho2. right.
  rewrite D1 in E1. rewrite D2 in E2. injection E1 as <- Z1. injection E2 as <- Z2.
  destruct (finish_honest H v m rs1 X1 Y1 Nm Ho1 (eq_sym Z1)) as (t1 & G1 & C1 & Eh1). destruct (finish_honest H v m rs2 X2 Y2 Nm Ho2 (eq_sym Z2)) as (t2 & G2 & C2 & Eh2).
  rewrite F1 in G1. rewrite F2 in G2. injection G1 as <-. injection G2 as <-. split; [|congruence].
  apply map_eq. intros [w p]. apply option_eq. intros nd. by rewrite (C1 w p nd), (C2 w p nd).
Qed.

(** *** C35: when a chunk is accepted, the entries given so far are those of the expected tree up to its last key
    (and the chunk was in increasing order), whatever was given before, rejected or not, and wherever the crashes. *)
Theorem C35_accepted_sound (ovf : bool) (m : gmap key value) (v : version) (calls : list call) c :
  client_run H ovf v (smt_root H m) calls = Ok (c, true) ->
  (exists k, cl_last c = Some k /\ is_Some (m !! k) /\ forall k', cl_given c !! k' = if decide (key_le k' k) then m !! k' else None) \/
  hash_broken H (root_inputs H m ++ cl_hashed c).
Proof.
  intros E. unfold client_run in E. destruct (start_hobj v m) as (rs0 & E0 & Ho & Ep). rewrite E0, bind_Ok in E.
  apply (all_calls_ok H v m) in E as [[_ S]|B]; [|by right|exists ∅; split; [by apply hobj_obj|by cbn; rewrite Ep]|done].
  left. destruct (S eq_refl) as (k & El & (_ & L & _ & _ & Up)). exists k. split; [done|]. split; [|done]. destruct (lv_prev _ _ _ _ _ _ L) as (x & Ex & _). exists x. rewrite Up in Ex. by rewrite decide_True in Ex by (by left).
Qed.
(** ... so nothing but the values of the expected tree ever gets into the store. *)
Theorem C35_store_sound (ovf : bool) (m : gmap key value) (v : version) (calls : list call) c b :
  client_run H ovf v (smt_root H m) calls = Ok (c, b) ->
  (forall k w x, store_value (rs_store (cl_obj c)) w k = Some x -> m !! k = Some x) \/ hash_broken H (root_inputs H m ++ cl_hashed c).
Proof.
  intros E. unfold client_run in E. destruct (start_hobj v m) as (rs0 & E0 & Ho & Ep). rewrite E0, bind_Ok in E.
  apply (all_calls_ok H v m) in E as [[(Y & (_ & G & _) & _) _]|B]; [|by right|exists ∅; split; [by apply hobj_obj|by cbn; rewrite Ep]|done].
  left. intros k w x Ex. destruct G as [(_ & _ & Eh)|(rs & k0 & _ & _ & [_ Eh] & Es & Up)].
  - unfold store_value in Ex. by rewrite Eh, lookup_empty in Ex.
  - rewrite Es in Eh. rewrite (hist1_value v _ Y k w Eh) in Ex. destruct (v <=? w)%N; [|done]. rewrite Up in Ex. by destruct (decide (key_le k k0)).
Qed.
(** for: a rejected chunk writes nothing *)
Lemma freeze_prev_store rs rs' : freeze_previous_leaf rs = Ok rs' -> rs_store rs' = rs_store rs.
Proof.
  unfold freeze_previous_leaf. destruct (rs_num rs =? 0); [by intros [= <-]|]. destruct (last (rs_partial rs)) as [i|]; [cbn [unwrap]; rewrite bind_Ok|done].
  destruct (rposition (ii_children i)) as [n|]; [cbn [unwrap]; rewrite bind_Ok|done]. destruct (ii_children i !! n) as [[]|]; [done|by intros [= <-]|done].
Qed.
Lemma freeze_top_store rs ps top rs' : freeze_top H rs ps top = Ok rs' -> rs_store rs' = rs_store rs.
Proof.
  unfold freeze_top. destruct (into_internal_node H (rs_version rs) top) as [[nk nd]| |]; [rewrite bind_Ok|done|done]. destruct (in_hash H nd) as [h| |]; [rewrite bind_Ok|done|done].
  destruct (last ps) as [parent|]; [|by intros [= <-]]. destruct (rposition (ii_children parent)) as [n|]; [cbn [unwrap]; rewrite bind_Ok|done].
  destruct (ii_children parent !! n) as [[oh c|]|]; [|done|done]. destruct (bool_decide (oh = None)); [cbn [assert_]; rewrite bind_Ok|done]. destruct (c =? 0); [cbn [assert_]; rewrite bind_Ok|done]. by intros [= <-].
Qed.
Lemma freeze_int_store n : forall rs rs', freeze_internal H n rs = Ok rs' -> rs_store rs' = rs_store rs.
Proof.
  induction n as [|n IH]; intros rs rs'; cbn [freeze_internal]; [by intros [= <-]|]. destruct (last (rs_partial rs)) as [top|]; [cbn [unwrap]; rewrite bind_Ok|done].
  destruct (freeze_top H rs _ top) as [rs1| |] eqn:E; [rewrite bind_Ok|done|done]. intros E2. apply IH in E2. apply freeze_top_store in E. congruence.
Qed.
Lemma rfreeze_store rs n rs' : rfreeze H rs n = Ok rs' -> rs_store rs' = rs_store rs.
Proof.
  unfold rfreeze. destruct (freeze_previous_leaf rs) as [rs1| |] eqn:E; [rewrite bind_Ok|done|done]. intros E2%freeze_int_store. apply freeze_prev_store in E. congruence.
Qed.
Lemma insert_leaf_store rs n l k vh vis rem rs' : insert_at_leaf H rs n l k vh vis rem = Ok rs' -> rs_store rs' = rs_store rs.
Proof.
  unfold insert_at_leaf. destruct (set_child_at _ _ _ _) as [ps| |]; [rewrite bind_Ok|done|done]. destruct (chain_loop _ _ _ _) as [[ch vi]| |]; [rewrite bind_Ok|done|done].
  destruct (get_nibble (ln_key l) _) as [e| |]; [rewrite bind_Ok|done|done]. match goal with |- context [rfreeze H ?r ?n] => destruct (rfreeze H r n) as [rs1| |] eqn:E end; [rewrite bind_Ok|done|done].
  apply rfreeze_store in E. destruct (get_nibble k _) as [mm| |]; [rewrite bind_Ok|done|done]. destruct (nib_ltb e mm); [cbn [assert_]; rewrite bind_Ok|done].
  destruct (set_child_at _ _ _ _) as [ps2| |]; [rewrite bind_Ok|done|done]. intros [= <-]. exact E.
Qed.
Lemma add_loop_store k vh rem : forall rs vis rs', add_loop H rs k vh vis rem = Ok rs' -> rs_store rs' = rs_store rs.
Proof.
  induction rem as [|n rem IH]; intros rs vis rs'; cbn [add_loop]; [by intros [= <-]|]. destruct (rs_partial rs !! length vis) as [i|]; [cbn [unwrap]; rewrite bind_Ok|done].
  destruct (ii_children i !! n) as [[oh c|l]|]; [apply IH| |].
  - destruct (length vis =? length (rs_partial rs) - 1); [cbn [assert_]; rewrite bind_Ok|done]. apply insert_leaf_store.
  - destruct (rfreeze H rs (length vis + 1)) as [rs1| |] eqn:E; [rewrite bind_Ok|done|done]. apply rfreeze_store in E. destruct (set_child_at _ _ _ _) as [ps| |]; [rewrite bind_Ok|done|done]. intros [= <-]. exact E.
Qed.
Lemma push_chunk_store ch : forall rs r, push_chunk H rs ch = Ok r -> rs_store r.1 = rs_store rs.
Proof.
  induction ch as [|[k x] ch IH]; intros rs r; cbn [push_chunk]; [by intros [= <-]|]. destruct (in_order rs k); [|by intros [= <-]]. unfold push_key, add_one.
  match goal with |- context [add_loop H ?r0 ?a ?b ?c ?d] => destruct (add_loop H r0 a b c d) as [rs1| |] eqn:E end; [rewrite !bind_Ok|done|done].
  intros E2%IH. apply add_loop_store in E. cbn in E, E2. congruence.
Qed.
(* C35_rejected_writes_nothing is in ThmMockSteps.v. *)

(** *** C36 (refuted): [finish] does not look at the expected root: called when entries are missing, it succeeds, and
    the store has the tree of the entries received. *)
Theorem C36_finish_unchecked (ovf : bool) (ops : list op) st xs (vs v : version) (root : hash) (evs : list event) n rs rest :
  run H ops = Ok (st, xs) -> readable ops vs -> get_root_hash H (store_reader st) vs = Ok root -> let m := contents_at (history ops) vs in m <> ∅ ->
  deliver_all H ovf (store_reader st) vs m v root (evs ++ [Deliver n]) = Ok (rs, rest) ->
  let received := filter (fun kx => kx ∉ rest) m in
  hash_broken H (root_inputs H m ++ root_inputs H received) \/
  exists s, finish H rs = Ok s /\ get_root_hash H (store_reader s) v = Ok (smt_root H received) /\
    (rest <> [] -> smt_root H received <> root).
Proof.
  intros R L Er m Nm E received. destruct (read_root H ops st xs vs R L) as [Er' _]. fold m in Er'. rewrite Er' in Er. apply Ok_inj in Er. subst root.
  destruct (nb_dec H (H <$> m)) as [NB|(x & Hx & Ex)]; [|left; right; exists x; split; [apply elem_of_app; left; by apply ms_in_root|done]].
  unfold deliver_all in E. destruct (start_hobj v m) as (rs0 & E0 & Ho & _). rewrite E0, bind_Ok, <- rest_empty in E.
  pose proof (source_run _ _ _ _ R L) as So. fold m in So. destruct (deliver_ok H v m ovf (store_reader st) vs evs NB So rs0 _ _ Ho) as (rs1 & X1 & Y1 & E1 & Ho1).
  rewrite deliver_app, E1, bind_Ok in E.
  assert (Sy : exists X k, rest = rest_of m X /\ synced H v m rs X k).
  { cbn [deliver] in E. destruct (last (take (n + 1) (rest_of m X1))) as [[k x]|] eqn:El.
    - assert (Em : m !! k = Some x). { apply last_Some in El as [l' El]. apply (rest_elem m X1 k x). rewrite <- (take_drop (n + 1) (rest_of m X1)), El. apply elem_of_app. left. apply elem_of_app. right. by left. }
      destruct (So k x Em) as (p & j & Ep & T & Es). rewrite Ep, bind_Ok in E.
      destruct (add_honest H v m ovf rs1 X1 Y1 _ (drop (n + 1) (rest_of m X1)) k x p j NB Ho1 (eq_sym (take_drop _ _)) El T Es) as (rs2 & X2 & E2 & Ho2 & Er2).
      rewrite E2, bind_Ok in E. injection E as <- <-. destruct Ho2 as (_ & _ & _ & [F|[_ [k2 S2]]]); [|exists X2, k2; split; [by rewrite Er2|done]].
      exfalso. destruct (add_obj H v m ovf rs1 X1 Y1 _ p rs2 None (hobj_obj _ _ _ _ _ _ Ho1) E2) as [Pv _]. destruct F as (q & k0 & x0 & (_ & _ & N0 & _) & _).
      unfold add_chunk in E2. destruct (take (n + 1) (rest_of m X1)) as [|c0 c1] eqn:Ec; [done|]. clear Ec. 
      destruct (push_chunk H rs1 (c0 :: c1)) as [[rs3 [e|]]| |] eqn:Ep3; [by rewrite bind_Ok in E2| |done|done]. rewrite bind_Ok in E2.
      destruct (push_obj H v m rs1 X1 Y1 (c0 :: c1) _ ltac:(done) (hobj_obj _ _ _ _ _ _ Ho1) Ep3) as (_ & _ & _ & _ & U & _). destruct (U eq_refl) as (g & W & kk & X0 & Lv & _). cbn [fst] in Lv.
      pose proof (lv_num _ _ _ _ _ _ Lv) as Ln. destruct (rverify H ovf rs3 p); [|done|done]. rewrite flush_eq in E2. destruct (write_node_batch _ _ _); [|done|done]. injection E2 as <-. cbn in N0. lia.
    - injection E as <- <-. apply last_None in El. apply (f_equal length) in El. rewrite take_length in El. assert (Le : length (rest_of m X1) = 0) by (cbn in El; lia). apply nil_length_inv in Le.
      destruct Ho1 as (_ & _ & _ & [F|[_ [k S1]]]); [|by exists X1, k]. destruct F as (q & k0 & x0 & _ & _ & _ & [_ [Me|[d Er0]]] & _); [done|congruence]. }
  destruct Sy as (X & k & -> & Sy). assert (Ex : received = X).
  { destruct Sy as (_ & _ & _ & _ & Up). apply upto_below in Up as [B1 B2]. apply map_eq. intros k'. apply option_eq. intros x'. unfold received. rewrite map_filter_lookup_Some, rest_elem. split.
    - intros [Em N]. destruct (X !! k') as [y|] eqn:Ey; [|by destruct N]. pose proof (lookup_weaken _ _ _ _ Ey B1). congruence.
    - intros Ey. split; [eapply lookup_weaken; done|]. intros [_ ?]. congruence. }
  rewrite Ex. destruct Sy as (_ & Lv & F & V & Up). destruct (lv_prev _ _ _ _ _ _ Lv) as (y & Ey & _).
  destruct (finish_ok H v rs X ∅ X k Lv V) as (s & Ef & C & Eh); [done|].
  assert (Nx : H <$> X <> ∅) by (intros Z; apply fmap_empty_inv in Z; by rewrite Z in Ey).
  destruct (decide (smt_root H X = smt_root H m)) as [Eq|Ne].
  - rewrite <- !ms_nil in Eq. apply (ms_inj H (root_inputs H m ++ root_inputs H X) _ _ 256 []) in Eq; [|done|intros z Hz%ms_in_root; apply elem_of_app; by right|intros z Hz%ms_in_root; apply elem_of_app; by left].
    destruct Eq as [Eq|B]; [|by left]. rewrite !under_nil in Eq. right. exists s. split; [done|]. destruct (get_root_hash_canon H _ _ _ _ (complete_stored H v s _ Nx C)) as [-> _]. split; [by rewrite ms_nil|].
    intros Nr. exfalso. apply Nr. destruct (rest_of m X) as [|[k' x'] d] eqn:Er; [done|]. exfalso. assert (Z : (k', x') ∈ rest_of m X) by (rewrite Er; by left). apply rest_elem in Z as [Z1 Z2].
    assert (Z3 : (H <$> X) !! k' = (H <$> m) !! k') by (by rewrite Eq). by rewrite !lookup_fmap, Z1, Z2 in Z3.
  - right. exists s. split; [done|]. destruct (get_root_hash_canon H _ _ _ _ (complete_stored H v s _ Nx C)) as [-> _]. by rewrite ms_nil.
Qed.
End thm.
(** The theorems applied to the last version of the demo history (keys 00.., 80.., C0..): a chunk of one entry, a crash (the entry is to
    be delivered again), two entries, a crash, and the rest. *)
Theorem demo_restored (H : list byte -> bytes32) ovf st xs root v : run H demo = Ok (st, xs) -> get_root_hash H (store_reader st) 4 = Ok root ->
  hash_broken H (root_inputs H {[ K00 := vb; K80 := va; KC0 := vc ]}) \/
  exists rs s, deliver_all H ovf (store_reader st) 4 {[ K00 := vb; K80 := va; KC0 := vc ]} v root [Deliver 0; Crash; Deliver 1; Crash; Deliver 3] = Ok (rs, []) /\
    finish H rs = Ok s /\ same_tree H s v st 4.
Proof.
  intros R Er. pose proof demo_contents as (_ & _ & _ & _ & Ec). pose proof (C34_restore_completes H ovf demo st xs 4 v root [Deliver 0; Crash; Deliver 1; Crash] R) as T.
  rewrite Ec in T. apply T; [apply demo_readable|done|]. intros X. apply (f_equal (fun m => m !! KC0)) in X. vm_compute in X. done.
Qed.
