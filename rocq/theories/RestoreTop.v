(** Flushing, finishing and recovering a restore (Restore.v). *)
From Coq Require Import Strings.String.
From Verif Require Import MockSteps MockStepFacts.
From Verif Require Import Base Spec NodeType ProofDef TreeCache Mock Restore KeyFacts SmtFacts ProofFacts NodeFacts Canon CanonSib PutFacts KeyOrder OrderFacts ThmNode ValueFacts ReadFacts RestoreFacts RestoreFacts2.
From Coq Require Import Lia.
Local Opaque Spec.smt.

Section facts.
Context (H : list byte -> bytes32) (v : version).
Implicit Types (X Y W : gmap key value) (q : list nibble) (S : gmap key vhash).
Notation vv := (fun _ : list nibble => v).

Lemma write_ok s nodes W Y : nodes ##ₘ st_nodes s -> st_history s = hist1 v Y ->
  write_node_batch s nodes (fvals v W) = Ok (mkStore (nodes ∪ st_nodes s) (st_stale s) (hist1 v (W ∪ Y)) (st_overwrite s)).
Proof.
  intros D Eh. unfold write_node_batch. rewrite bool_decide_true.
  2:{ apply set_eq. intros x. rewrite elem_of_intersection, !elem_of_dom. split; [|by intros ?%elem_of_empty]. intros [[a Ea] [b Eb]].
      rewrite map_disjoint_spec in D. by destruct (D _ _ _ Ea Eb). }
  rewrite orb_true_r. cbn [assert_]. rewrite bind_Ok, Eh, write_fvals, bind_Ok. done.
Qed.
Lemma write_no_err s nodes W Y e : st_history s = hist1 v Y -> write_node_batch s nodes (fvals v W) <> Err e.
Proof. intros Eh. unfold write_node_batch. destruct (assert_ _) as [[]| |] eqn:Ea; [rewrite bind_Ok, Eh, write_fvals; done|by destruct (_ || _)|done]. Qed.
(** flushing, by what the compact model of the write gives *)
Lemma flush_eq rs : flush rs = match write_node_batch (rs_store rs) (rs_fnodes rs) (rs_fvalues rs) with
  | Ok s => Ok (RS s (rs_version rs) (rs_partial rs) ∅ ∅ (rs_prev rs) (rs_num rs) (rs_root rs), None)
  | Err e => Ok (RS (write_node_batch_io (rs_store rs) (rs_fnodes rs) (rs_fvalues rs)).1 (rs_version rs) (rs_partial rs) (rs_fnodes rs) (rs_fvalues rs) (rs_prev rs) (rs_num rs) (rs_root rs), Some e)
  | Panic => Panic end.
Proof.
  unfold flush. rewrite <- C86_node_batch_outcome. unfold io_result. by destruct (write_node_batch_io (rs_store rs) (rs_fnodes rs) (rs_fvalues rs)) as [s [[]| |]].
Qed.
Lemma flush_ok rs X W Y k : live H v True rs X k -> vals v rs W Y -> exists rs', flush rs = Ok (rs', None) /\ live H v True rs' X k /\ vals v rs' ∅ (W ∪ Y) /\
  rs_fnodes rs' = ∅ /\ rs_root rs' = rs_root rs.
Proof.
  intros [(q & c & I & E & T) P M N] [V1 V2]. rewrite flush_eq. rewrite V1, (write_ok _ _ W Y (ri_disj I Logic.I) V2). eexists. split; [done|]. split; [|split; [|done]].
  - split; [|done..]. exists q, c. split; [|done]. split; cbn; [apply (ri_version I)|apply (ri_len I)|apply (ri_chain I)|apply (ri_rmost I)|intros _; apply map_disjoint_empty_l|].
    intros _ w p nd. rewrite <- (ri_nodes I Logic.I). unfold all_nodes. cbn. by rewrite (left_id_L ∅ (∪)).
  - split; cbn; [|done]. unfold fvals. by rewrite fmap_empty, kmap_empty.
Qed.

(** the nodes of the tree of [S], all at version [v] *)
Definition occn S (p : list nibble) : Prop := U p S <> ∅ /\ forall r, r `prefix_of` p -> r <> p -> 2 <= size (U r S).
Definition complete (s : store) S : Prop := forall w p nd, st_nodes s !! (w, p) = Some nd <-> w = v /\ occn S p /\ nd = node_at H S vv p.
Lemma freeze_internal_add a : forall b rs, freeze_internal H (a + b) rs = (rs ← freeze_internal H a rs; freeze_internal H b rs).
Proof.
  induction a as [|a IH]; intros b rs; [done|]. cbn [Nat.add freeze_internal]. destruct (unwrap (last (rs_partial rs))) as [top| |]; [rewrite !bind_Ok|done|done].
  destruct (freeze_top H rs (take (length (rs_partial rs) - 1) (rs_partial rs)) top) as [rs'| |]; [|done|done]. rewrite !bind_Ok. apply IH.
Qed.
Lemma complete_nil S s nodes : 2 <= size S -> (forall w p nd, nodes !! (w, p) = Some nd <-> w = v /\ fr S [] None p /\ nd = node_at H S vv p) ->
  st_nodes s = <[ (v, []) := node_at H S vv [] ]> nodes -> complete s S.
Proof.
  intros Sz N E w p nd. rewrite E, lookup_insert_Some, N. unfold fr, occn, occ. split.
  - intros [[[= <- <-] <-]|[Ne (-> & ((O1 & O2) & O3 & _) & ->)]].
    + split; [done|]. split; [|done]. split; [rewrite U_nil; intros ->; rewrite map_size_empty in Sz; lia|]. intros r R1 R2. destruct R2. by apply prefix_nil_inv.
    + split; [done|]. split; [|done]. split; [done|]. intros r R1 R2. destruct (O2 r R1 R2) as [->%prefix_nil_inv|]; [|done]. by rewrite U_nil.
  - intros (-> & (O1 & O2) & ->). destruct (decide (p = [])) as [->|Np]; [by left|right]. split; [congruence|]. split; [done|]. split; [|done]. split; [|split; [|done]].
    + split; [done|]. intros r R1 R2. right. by apply O2.
    + intros ->%prefix_nil_inv. done.
Qed.
Lemma finish_ok rs X W Y k : live H v True rs X k -> vals v rs W Y -> (size X = 1 -> rs_fnodes rs = ∅ /\ W = ∅) ->
  exists s, finish H rs = Ok s /\ complete s (H <$> X) /\ st_history s = hist1 v (W ∪ Y).
Proof.
  intros [(q & c & I & (h & Eu) & T) P M N] [V1 V2] Emp. unfold finish.
  assert (Ek : U (q ++ [c]) (H <$> X) !! k = Some h) by (rewrite Eu; apply lookup_singleton). apply U_lookup in Ek as [Ek Pk].
  destruct (ri_bottom _ _ _ _ _ _ _ I) as (i & _ & _ & Ki & Ci & Eps).
  destruct (size_cases (H <$> X)) as [E0|[(k' & h' & E1)|E2]].
  - by rewrite E0 in Ek.
  - (* one key *)
    assert (q = []) as ->. { destruct q as [|a q]; [done|]. specialize (T ltac:(done)). pose proof (U_app_size [] (a :: q) (H <$> X)) as L. rewrite U_nil, E1, map_size_singleton in L. rewrite E1 in T. cbn [app] in L. lia. }
    cbn [app length take] in *. rewrite take_0 in Eps. cbn [app] in Eps. rewrite E1 in Ek. apply lookup_singleton_Some in Ek as [-> ->]. destruct Emp as [Ef ->]. { rewrite <- (map_size_fmap H X), E1. apply map_size_singleton. }
    rewrite Eps. assert (Ef' : filter (fun n => is_Some (ii_children i !! n)) all_nibbles = [c]).
    { apply Permutation_singleton_r. apply NoDup_Permutation; [apply NoDup_filter, all_nibbles_nodup|apply NoDup_singleton|].
      intros n. rewrite elem_of_list_filter, elem_of_list_singleton, Ci. cbn [app]. split.
      - intros [[ci Hc] _]. destruct (decide (U [n] (H <$> X) = ∅)) as [E|E]; [by rewrite cinfo_none in Hc|]. apply U_nonempty in E as (x & y & Ex & Px).
        rewrite E1 in Ex. apply lookup_singleton_Some in Ex as [<- <-]. by apply (pre_snoc_eq [] (key_nibbles k)).
      - intros ->. rewrite (cinfo_leaf _ _ _ _ _ Eu). split; [eauto|apply all_nibbles_complete]. }
    rewrite Ef', Ci. cbn [app]. rewrite (cinfo_leaf _ _ _ _ _ Eu). rewrite Ef, V1.
    rewrite bool_decide_true by done. rewrite bool_decide_true by (unfold fvals; by rewrite fmap_empty, kmap_empty). cbn [andb assert_]. rewrite bind_Ok.
    assert (En : st_nodes (rs_store rs) = ∅).
    { apply map_empty. intros [w p]. destruct (st_nodes (rs_store rs) !! (w, p)) as [nd|] eqn:E; [|done]. exfalso.
      assert (E' : all_nodes rs !! (w, p) = Some nd) by (unfold all_nodes; by rewrite Ef, (left_id_L ∅ (∪))).
      apply (ri_nodes I Logic.I) in E' as (_ & ((O1 & O2) & O3 & O4) & _). cbn [app] in O4.
      apply U_nonempty in O1 as (x & y & Ex & Px). rewrite E1 in Ex. apply lookup_singleton_Some in Ex as [<- <-].
      destruct (pre_cmp p [] (key_nibbles k) c Px Pk) as [|P']; [done|]. cbn [app] in P'. destruct (decide ([c] = p)) as [Ec|Nc]; [by rewrite Ec in O4|].
      destruct (O2 _ P' Nc) as [Z|Z]; [by apply prefix_nil_inv in Z|]. rewrite Eu, map_size_singleton in Z. lia. }
    pose proof (write_ok (rs_store rs) {[ nk_root (rs_version rs) := Leaf (LeafNode k h) ]} ∅ Y) as Wk.
    unfold fvals in Wk. rewrite fmap_empty, kmap_empty in Wk. rewrite Wk; [|rewrite En; apply map_disjoint_empty_r|done]. eexists. split; [done|]. split; [|done].
    intros w p nd. cbn [st_nodes]. rewrite En, (right_id_L ∅ (∪)), lookup_singleton_Some, (ri_version I). unfold occn, nk_root. 
    assert (Un : U [] (H <$> X) = {[ k := h ]}) by (by rewrite U_nil). split.
    + intros [[= <- <-] <-]. split; [done|]. split; [|by rewrite (node_at_leaf H _ _ _ k h)]. split; [rewrite Un; apply single_ne|]. intros r R1 R2. destruct R2. by apply prefix_nil_inv.
    + intros (-> & (O1 & O2) & ->). destruct p as [|a p]; [by rewrite (node_at_leaf H _ _ _ k h)|]. exfalso. specialize (O2 [] ltac:(apply prefix_nil) ltac:(done)).
      rewrite Un, map_size_singleton in O2. lia.
  - (* several keys *)
    match goal with |- context [match ?x with Some l => _ | None => _ end] => assert (Sn : x = None) end.
    { rewrite Eps. destruct (take (length q) (rs_partial rs)) as [|a l] eqn:Et; [|by destruct l]. cbn [app].
      assert (q = []) as ->. { destruct q; [done|]. pose proof (proj1 (ri_chain I)) as Lp. apply (f_equal length) in Et. rewrite take_length, Lp in Et. cbn in Et. lia. }
      destruct (filter (fun n => is_Some (ii_children i !! n)) all_nibbles) as [|n [|n' l]] eqn:Ef; [done| |done].
      rewrite Ci. cbn [app]. destruct (size_cases (U [n] (H <$> X))) as [E|[(x & y & E)|E]]; [by rewrite cinfo_none| |by rewrite cinfo_many].
      exfalso. assert (Sub : forall z y', (H <$> X) !! z = Some y' -> [n] `prefix_of` key_nibbles z).
      { intros z y' Ez. destruct (prefix_next [] z) as [m Pm]; [apply prefix_nil|cbn; lia|]. cbn [app] in Pm.
        assert (Hm : m ∈ filter (fun n => is_Some (ii_children i !! n)) all_nibbles).
        { apply elem_of_list_filter. split; [|apply all_nibbles_complete]. rewrite Ci. cbn [app]. destruct (cinfo H (H <$> X) [m]) eqn:Ec; [eauto|].
          apply cinfo_is_none in Ec. assert (Z : U [m] (H <$> X) !! z = Some y') by (by apply U_lookup). by rewrite Ec in Z. }
        rewrite Ef in Hm. apply elem_of_list_singleton in Hm as ->. done. }
      assert (Eq : H <$> X = {[ x := y ]}).
      { rewrite <- E. apply map_eq. intros z. apply option_eq. intros y'. rewrite U_lookup. split; [|tauto]. intros Ez. split; [done|]. by eapply Sub. }
      rewrite Eq, map_size_singleton in E2. lia. }
    rewrite Sn. unfold rfreeze.
    destruct (freeze_prev_ok H v True rs _ q c k h I Eu (live_right H v _ _ _ _ _ _ _ I Eu M) N) as (rs1 & -> & I1 & R1 & Ep1). rewrite bind_Ok.
    unfold freeze_internal_nodes. rewrite Ep1, (proj1 (ri_chain I)), Nat.sub_0_r. replace (Datatypes.S (length q)) with (length q + 1) by lia. rewrite freeze_internal_add.
    destruct (freeze_internal_ok H v True (length q) rs1 _ q I1) as (rs2 & -> & I2 & R2); [lia|intros L; apply T; destruct q; [cbn in L; lia|done]|]. rewrite bind_Ok.
    rewrite Nat.sub_diag, take_0 in I2. cbn [freeze_internal].
    destruct (ri_bottom _ _ _ _ _ _ _ I2) as (j & _ & -> & Kj & Cj & Ej). cbn [length] in Ej. rewrite take_0 in Ej. cbn [app] in Ej. cbn [unwrap]. rewrite bind_Ok, Ej. cbn [length Nat.sub take].
    unfold freeze_top. rewrite (ri_version I2). rewrite (into_internal_ok H v (H <$> X) [] j); [|by rewrite U_nil|done]. rewrite bind_Ok.
    rewrite in_hash_canon by (cbn; lia). rewrite bind_Ok. cbn [last]. rewrite !bind_Ok.
    cbn [set_partial freeze_node rs_store rs_fnodes rs_fvalues].
    destruct R1 as (S1 & _ & F1 & _). destruct R2 as (S2 & _ & F2 & _). rewrite F2, F1, V1.
    rewrite (write_ok _ _ W Y).
    + eexists. split; [done|]. split; [|done]. eapply (complete_nil (H <$> X) _ (all_nodes rs2)); [done|apply (ri_nodes I2 Logic.I)|].
      cbn [st_nodes]. rewrite <- insert_union_l, Kj. unfold all_nodes. rewrite node_at_internal by (by rewrite U_nil). done.
    + rewrite Kj. apply map_disjoint_insert_l_2; [|apply (ri_disj I2 Logic.I)].
      destruct (st_nodes (rs_store rs2) !! (v, [])) as [nd|] eqn:E; [|done].
      assert (E' : all_nodes rs2 !! (v, []) = Some nd). { unfold all_nodes. rewrite lookup_union_r; [done|].
        pose proof (ri_disj I2 Logic.I) as D. rewrite map_disjoint_spec in D. destruct (rs_fnodes rs2 !! (v, [])) eqn:F; [|done]. by destruct (D _ _ _ F E). }
      apply (ri_nodes I2 Logic.I) in E' as (_ & (_ & Z & _) & _). destruct Z. apply prefix_nil.
    + by rewrite S2, S1.
Qed.
(** reading a complete store *)
Lemma complete_stored s S : S <> ∅ -> complete s S -> stored H (store_reader s) S vv v.
Proof.
  intros Ne C. split.
  - cbn. apply C. split; [done|]. split; [|done]. split; [by rewrite U_nil|]. intros r R1 R2. destruct R2. by apply prefix_nil_inv.
  - intros p Hm. unfold kids_ok. intros n Hn. cbn. apply C. split; [done|]. split; [|done]. split; [done|]. intros r R1 R2.
    destruct (pre_cmp r p (p ++ [n]) n R1) as [[z ->]|P]; [done|by eapply U_many_up|]. exfalso. apply R2. by apply (anti_symm prefix).
Qed.
Lemma hist1_value s Y k w : st_history s = hist1 v Y -> store_value s w k = if (v <=? w)%N then Y !! k else None.
Proof.
  intros E. unfold store_value, hist1 in *. rewrite E, lookup_fmap. destruct (Y !! k) as [x|]; cbn; [done|]. by destruct (v <=? w)%N.
Qed.
End facts.
