(** C67: a store may begin at any version, provided the first value set inserts something (C40: what happens if it does not). 
    Beside it: C41 (ThmRefute), a version that skips numbers also starts from the empty tree. *)
From Coq Require Import Strings.String.
From Verif Require Import Base Spec SpecOrder SpecRange NodeType ProofDef TreeCache Tree Mock Driver Iterator Exclusion KeyFacts SmtFacts ProofFacts NodeFacts Canon CanonSib ReadFacts PutFacts InsertFacts PutTop VersionFacts ValueFacts StoreFacts DriverFacts DriverFacts2 LeafVersion KeyOrder ThmProof ThmStore ThmRange ThmIter ThmExcl Demo Toy ThmCrash ThmContinue FirstFacts.
From Coq Require Import Lia.
Local Opaque Spec.smt root_inputs ms_in.

(** *** specification *)
Definition inserts (s : value_set) : Prop := exists k x, (k, Some x) ∈ s.
(** the versions that can be read when the first is [v] *)
Definition readable_from (v : version) (ops : list op) (w : version) : Prop :=
  ((fold_left floor_step ops (v, v)).1 <= w)%N /\ (w < v + num_versions ops)%N.

Section first.
Context (H : list byte -> bytes32).
Lemma nodes_null x nk nd : a_map (vs_a x) = ∅ -> nodes_of H x nk nd -> nd = Null.
Proof. intros E (_ & -> & _). rewrite E. apply node_at_null. apply map_empty. intros k. apply eq_None_not_Some. intros [z Z]. by apply U_lookup in Z as [? _]. Qed.
(** [n] versions without effect *)
Definition pad (n : version) : list value_set := replicate (N.to_nat n) [].
Lemma pad_length n : N.of_nat (length (pad n)) = n.
Proof. unfold pad. rewrite replicate_length. lia. Qed.
Lemma pad_empty n i : contents_at (pad n) i = ∅.
Proof. unfold contents_at, pad. rewrite take_replicate. apply apply_nils. Qed.
Lemma pad_hist n : hist_ok ∅ (pad n).
Proof. intros k. rewrite lookup_empty. cbn [default]. unfold pad. pose proof (hl_nils (N.to_nat n) 0 k []) as E. rewrite app_nil_r in E. by rewrite E. Qed.
Lemma pad_after n sets i : (n <= i)%N -> contents_at (pad n ++ sets) i = contents_at sets (i - n).
Proof.
  intros L. unfold contents_at. rewrite take_app_ge by (unfold pad; rewrite replicate_length; lia). unfold apply_sets. rewrite fold_left_app.
  assert (E : fold_left apply_set (pad n) ∅ = ∅) by apply apply_nils. rewrite E. do 2 f_equal. unfold pad. rewrite replicate_length. lia.
Qed.

(** the first commit *)
Lemma first_commit v o s sets : v <> 0%N -> op_sets o = s :: sets -> inserts s ->
  let tb := xrun H tb0 [Commit (pad v)] in let tb' := xop H tb o in
  exists st x, step H store_empty v o = Ok (st, x) /\ out_ok H tb (pad v) o x /\ SInvB H v st tb'.1 tb'.2 (pad v ++ op_sets o) v.
Proof.
  intros Hv Eo Hs tb tb'. destruct (run_ok H [Commit (pad v)]) as (st0 & xs0 & _ & _ & S). fold tb in S.
  assert (Ehi : history [Commit (pad v)] = pad v) by (cbn; by rewrite app_nil_r). rewrite Ehi in S.
  pose proof (si_trok _ _ _ _ _ _ S) as T. pose proof (si_len _ _ _ _ _ _ S) as Len.
  assert (Lv : N.of_nat (length tb.1) = v) by (rewrite Len; apply pad_length).
  assert (Nt : tb.1 <> []) by (intros E; rewrite E in Lv; cbn in Lv; lia).
  assert (E0 : forall x, x ∈ tb.1 -> a_map (vs_a x) = ∅).
  { intros x (i & Ei)%elem_of_list_lookup. rewrite (si_map _ _ _ _ _ _ S _ _ Ei), pad_empty. apply fmap_empty. }
  assert (Vt : forall x, x ∈ tb.1 -> (vs_v x < v)%N) by (intros x Hx; rewrite <- Lv; by apply (tr_lt H)).
  assert (NS : forall s' nk, ~ stale_at tb.1 s' nk).
  { intros s' nk (x & Hx & _ & Sx). destruct T as (_ & T2 & _). pose proof (T2 x nk Hx Sx) as (L & y & Hy & N).
    apply nodes_null in N; [|by apply E0]. destruct Sx as [[(_ & Lv' & _) _] _]. by apply (node_at_some H _ (vs_ver0 x) _ Lv') in N. }
  destruct (si_tr _ _ _ _ _ _ S) as [[? _]|TT]; [done|].
  assert (Em : bt_map tb.2 = ∅). { rewrite (si_bmap _ _ _ _ _ _ S). assert (last_contents (pad v) = ∅) as -> by apply apply_nils. apply fmap_empty. }
  set (tr' := trn H tb.1 tb.2 (op_sets o)).
  assert (Etr : tr' = trace H (v - 1 + 1) (gap_bt (v - 1) (bt_ver (rekey (v - 1) tb.2))) (s :: sets)).
  { unfold tr', trn. rewrite decide_False by done. rewrite Lv, Eo. replace (v - 1 + 1)%N with v by lia. f_equal. unfold rekey, gap_bt. by rewrite Em. }
  destruct (put_sets_gap H (store_reader store_empty) (v - 1) (bt_ver (rekey (v - 1) tb.2))) with (sets := s :: sets) as (Os & pfss & c' & P1 & P2 & P3 & P4); [intros; apply lookup_empty|done|].
  rewrite <- Etr in Os, P4. replace (v - 1 + 1)%N with v in P1, P2, P4 by lia.
  assert (Ec : cache_new (store_reader store_empty) v = mkCache (nk_root (v - 1)) v ∅ ∅ 0 ∅ 0 ∅ ∅ ∅ [] []).
  { unfold cache_new. by destruct (N.eqb_spec v 0). }
  destruct (frozen_batch H _ _ _ _ _ P4) as [BO Rt]; [by rewrite Ec..|].
  set (bt := (cache_into c').2) in *.
  assert (Tn : Tr H (tb.1 ++ tr') (last_bt tb.2 tr')).
  { pose proof (tr_trace H (s :: sets) tb.1 tb.2 (rekey (N.of_nat (length tb.1) - 1) tb.2) TT) as G. 
    assert (E : tr' = trace H (N.of_nat (length tb.1)) (rekey (N.of_nat (length tb.1) - 1) tb.2) (s :: sets)) by (unfold tr', trn; rewrite decide_False by done; by rewrite Eo).
    rewrite <- E in G. apply G; [by right|done]. }
  assert (Vn : forall i x, tr' !! i = Some x -> vs_v x = (v + N.of_nat i)%N /\ a_map (vs_a x) = H <$> contents_at (pad v ++ op_sets o) (v + N.of_nat i)).
  { intros i x Ex. destruct (trn_maps H _ _ _ _ _ (op_sets o) S i x Ex) as [E1 E2]. pose proof (pad_length v) as Lp. split; [rewrite E1; lia|]. rewrite E2. do 2 f_equal. lia. }
  assert (Vg : forall x, x ∈ tr' -> (v <= vs_v x)%N) by (intros x (i & Ei)%elem_of_list_lookup; destruct (Vn i x Ei) as [-> _]; lia).
  destruct (write_batch_values ∅ (pad v) (s :: sets) (pad_hist v)) as (h' & W & Hh). rewrite pad_length in W.
  assert (Wr : write_tree_update_batch store_empty bt = Ok (mkStore (tb_nodes bt) (tb_stale bt) h' false)).
  { unfold write_tree_update_batch, write_node_batch. cbn [store_empty st_nodes st_stale st_history st_overwrite]. rewrite (bo_values _ _ _ _ _ BO).
    rewrite (bool_decide_eq_true_2 (dom (tb_nodes bt) ∩ dom (∅ : gmap nodekey node) = ∅)) by (rewrite dom_empty_L; apply intersection_empty_r_L). cbn [orb assert_]. rewrite bind_Ok, W, !bind_Ok.
    cbn [st_stale st_nodes st_history st_overwrite]. rewrite (bool_decide_eq_true_2 (tb_stale bt ∩ ∅ = ∅)) by apply intersection_empty_r_L. cbn [ensure_]. rewrite bind_Ok. by rewrite !(right_id_L ∅ (∪)). }
  assert (Et' : tb' = (tb.1 ++ tr', last_bt tb.2 tr')). { unfold tb', xop. destruct o; [done|done|]. discriminate Eo. }
  exists (mkStore (tb_nodes bt) (tb_stale bt) h' false).
  assert (O : exists x, step H store_empty v o = Ok (mkStore (tb_nodes bt) (tb_stale bt) h' false, x) /\ out_ok H tb (pad v) o x).
  { assert (Ebt : forall A (g : list hash * tree_batch -> A), g (cache_into c') = g (map (fun x => ms H [] (a_map (vs_a x))) tr', bt)) by (intros A g; rewrite <- Rt; by destruct (cache_into c')).
    destruct o as [ss|ss|l]; cbn [op_sets] in *; [subst ss|subst ss|done].
    - eexists. split; [cbn [step]; unfold put_value_sets; rewrite P1, bind_Ok, (Ebt _ (fun x => Ok x)), bind_Ok, Wr, bind_Ok; reflexivity|]. cbn [out_ok]. rewrite pad_length. split; [done|]. exact BO.
    - eexists. split; [cbn [step]; unfold put_value_sets_with_proof; rewrite P2, bind_Ok|].
      + rewrite (Ebt _ (fun x => let '(roots, b) := x in Ok (zip roots pfss, b))). cbn beta iota. rewrite bind_Ok, Wr, bind_Ok. reflexivity.
      + cbn [out_ok]. rewrite pad_length. exists pfss. split; [done|]. rewrite Em. done. }
  destruct O as (x & Ex & Ox). exists x. split; [done|]. split; [done|]. rewrite Et'. cbn [fst snd].
  split; cbn [st_nodes st_stale st_history st_overwrite].
  - by right.
  - rewrite !app_length, Len. unfold tr'. by rewrite trn_length.
  - done.
  - intros s' nk E. apply (bo_stale _ _ _ _ _ BO) in E as (y & Hy & E). exists y. split; [apply elem_of_app; by right|done].
  - intros nk nd. rewrite (bo_nodes _ _ _ _ _ BO). split.
    + intros (y & Hy & N). split; [exists y; split; [apply elem_of_app; by right|]; split; [by apply Vg|done]|].
      intros s' (z & [Hz|Hz]%elem_of_app & Es & Sz); [exfalso; apply (NS s' nk); by exists z|]. apply (bo_stale _ _ _ _ _ BO). by exists z.
    + intros [(y & [Hy|Hy]%elem_of_app & Ly & N) _]; [apply Vt in Hy; lia|]. by exists y.
  - intros s' nk (z & [Hz|Hz]%elem_of_app & Es & Sz) _; [exfalso; apply (NS s' nk); by exists z|]. apply (bo_stale _ _ _ _ _ BO). by exists z.
  - by rewrite Eo.
  - intros i y [E|[Li E]]%lookup_app_Some.
    + rewrite E0 by (by eapply elem_of_list_lookup_2). apply lookup_lt_Some in E. rewrite contents_at_app by (rewrite pad_length; lia). by rewrite pad_empty, fmap_empty.
    + apply Vn in E as [_ ->]. do 2 f_equal. lia.
  - right. split; [rewrite app_length; unfold tr'; rewrite trn_length, Eo; cbn [length]; lia|]. split; [lia|]. intros y [Hy|Hy]%elem_of_app L; [by apply E0|]. apply Vg in Hy. lia.
Qed.

(** *** C67 *)
Theorem C67_any_first_version (v : version) (o : op) (s : value_set) (sets : list value_set) (more : list op) : op_sets o = s :: sets -> inserts s ->
  let ops := o :: more in exists st xs, run_from H store_empty v ops = Ok (st, xs) /\
    flat_map out_roots xs = map (fun i => smt_root H (contents_at (history ops) (N.of_nat i))) (seq 0 (length (history ops))) /\
    (forall w, readable_from v ops w -> reads_as H st w (contents_at (history ops) (w - v))).
Proof.
  intros Eo Hs ops. destruct (decide (v = 0%N)) as [->|Hv].
  - destruct (run_ok H ops) as (st & xs & R & _). exists st, xs. split; [exact R|]. split; [by apply (run_roots H ops st)|].
    intros w [L1 L2]. rewrite N.sub_0_r. apply view_reads. eapply run_view; [exact R|]. split; [exact L1|lia].
  - set (tb := xrun H tb0 [Commit (pad v)]). destruct (first_commit v o s sets Hv Eo Hs) as (st1 & x1 & E1 & O1 & S1). fold tb in O1, S1.
    destruct (run_from_okB H v more st1 (xop H tb o) _ _ S1) as (st & xs & R & O & S2).
    assert (El : N.of_nat (length (pad v ++ op_sets o)) = (v + N.of_nat (length (op_sets o)))%N) by (rewrite app_length, Nat2N.inj_add, pad_length; done). rewrite El in R, S2.
    exists st, (x1 :: xs). split; [unfold ops; cbn [run_from]; rewrite E1, bind_Ok, R, bind_Ok; done|].
    set (ops' := Commit (pad v) :: o :: more). assert (Eh : history ops' = pad v ++ history ops) by done.
    assert (Ex : xrun H (xop H tb o) more = xrun H tb0 ops') by done. rewrite Ex, <- app_assoc in S2. change (op_sets o ++ history more) with (history ops) in S2. rewrite <- Eh in S2.
    pose proof (sb_len _ _ _ _ _ _ _ S2) as Len. rewrite Eh, app_length in Len.
    assert (Lp : length (pad v) = N.to_nat v) by apply replicate_length.
    split.
    + assert (Oo : outs_ok H tb (pad v) ops (x1 :: xs)) by (split; [exact O1|exact O]). apply outs_ok_roots in Oo.
      change (xrun H tb ops) with (xrun H tb0 ops') in Oo.
      assert (Lt : length tb.1 = length (pad v)). { destruct (run_ok H [Commit (pad v)]) as (? & ? & _ & _ & S0). fold tb in S0. rewrite (si_len _ _ _ _ _ _ S0). cbn. by rewrite app_nil_r. }
      apply (f_equal (drop (length tb.1))) in Oo. rewrite drop_app_alt in Oo by (unfold rootl; by rewrite map_length). rewrite Oo.
      apply list_eq. intros i. unfold rootl. rewrite lookup_drop, !list_lookup_fmap.
      destruct ((xrun H tb0 ops').1 !! (length tb.1 + i)) as [x|] eqn:E.
      * pose proof (lookup_lt_Some _ _ _ E). rewrite lookup_seq_lt by lia. cbn [fmap option_fmap option_map]. rewrite (sb_map _ _ _ _ _ _ _ S2 _ _ E), ms_nil, Eh.
        rewrite pad_after by lia. assert (N.of_nat (length tb.1 + i) - v = N.of_nat (0 + i))%N as -> by lia. reflexivity.
      * apply lookup_ge_None in E. rewrite lookup_seq_ge by lia. done.
    + intros w [L1 L2]. assert (Ef : fold_left floor_step ops (v, v) = fold_left floor_step more (v, v + N.of_nat (length (op_sets o)))%N).
      { unfold ops. cbn [fold_left]. f_equal. destruct o; [done|done|]. discriminate Eo. }
      rewrite Ef in L1. pose proof (sb_floor_ge _ _ _ _ _ _ _ S2) as Bf.
      rewrite <- (pad_after v (history ops) w) by lia. rewrite <- Eh. apply view_reads. eapply sb_view; [exact S2|exact L1|].
      rewrite Eh, app_length. unfold num_versions in L2. lia.
Qed.
End first.

(** the hypotheses are met: the history of Demo.v with first version 1000 *)
Definition demo_first : op := Commit [ [(K00, Some va); (K80, Some vb)]; [(K00, Some vb); (KC0, Some vc)] ].
Definition demo_rest : list op := [ CommitP [ [(K80, None)] ]; Commit [ [] ]; Purge 1002; Commit [ [(K80, Some va)] ] ].
Example C67_demo (H : list byte -> bytes32) : inserts [(K00, Some va); (K80, Some vb)] /\ (forall w, readable_from 1000 (demo_first :: demo_rest) w <-> (1002 <= w <= 1004)%N) /\ exists st xs, run_from H store_empty 1000 (demo_first :: demo_rest) = Ok (st, xs) /\ get_root_hash H (store_reader st) 1003 = Ok (smt_root H {[ K00 := vb; KC0 := vc ]}).
Proof.
  assert (I : inserts [(K00, Some va); (K80, Some vb)]) by (eexists _, _; left).
  assert (R : forall w, readable_from 1000 (demo_first :: demo_rest) w <-> (1002 <= w <= 1004)%N).
  { intros w. unfold readable_from. assert ((fold_left floor_step (demo_first :: demo_rest) (1000, 1000)%N).1 = 1002%N) as -> by reflexivity.
    assert (num_versions (demo_first :: demo_rest) = 5%N) as -> by reflexivity. lia. }
  split; [exact I|]. split; [exact R|]. destruct (C67_any_first_version H 1000 demo_first _ _ demo_rest eq_refl I) as (st & xs & E & _ & G). exists st, xs. split; [exact E|].
  destruct (G 1003%N) as (_ & _ & Hr & _); [apply R; lia|]. rewrite Hr. assert (contents_at (history (demo_first :: demo_rest)) (1003 - 1000) = {[ K00 := vb; KC0 := vc ]}) as ->; [|reflexivity].
  apply (bool_decide_eq_true_1 _); vm_compute; reflexivity.
Qed.
