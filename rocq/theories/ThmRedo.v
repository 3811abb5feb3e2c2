(** C61, the part that is true: redoing a commit that was interrupted, over whatever it left behind. *)
From Coq Require Import Strings.String.
From Verif Require Import Base Spec NodeType ProofDef TreeCache Tree Mock Driver KeyFacts SmtFacts ProofFacts NodeFacts Canon CanonSib ReadFacts PutFacts InsertFacts InsertInt InsertInt2 PutTop VersionFacts KeyOrder ValueFacts StoreFacts DriverFacts DriverFacts2 ThmProof ThmCrash Demo Toy.
From Coq Require Import Lia.
Local Opaque Spec.smt.

Lemma bind_inv {A B} (x : outcome A) (f : A -> outcome B) y : (x ≫= f) = Ok y -> exists a, x = Ok a /\ f a = Ok y.
Proof. destruct x; cbn; [eauto|done|done]. Qed.

Section mono.
Context (H : list byte -> bytes32) (rd rd' : reader).
Context (Le : forall nk nd, rd_node rd nk = Some nd -> rd_node rd' nk = Some nd).

Lemma cache_node_mono c nk nd : cache_node rd c nk = Some nd -> cache_node rd' c nk = Some nd.
Proof. unfold cache_node. destruct (tc_nodes c !! nk); [done|]. destruct (fz_nodes c !! nk); [done|]. apply Le. Qed.
Lemma cache_get_mono c nk nd : cache_get_node rd c nk = Ok nd -> cache_get_node rd' c nk = Ok nd.
Proof.
  unfold cache_get_node. destruct (cache_node rd c nk) as [n|] eqn:E; cbn; [|done]. intros [= ->]. by rewrite (cache_node_mono _ _ _ E).
Qed.
(** without proofs, the only node an insertion may find missing is the root *)
Lemma insert_at_mono rem : forall vis nk v vh c x, insert_at H rd rem vis nk v vh c false = Ok x -> nk.2 <> [] \/ cache_node rd c nk <> None ->
  insert_at H rd' rem vis nk v vh c false = Ok x.
Proof.
  induction rem as [|n rem IH]; intros vis nk v vh c x E Hn; cbn [insert_at] in E |- *.
  - destruct (cache_node rd c nk) as [nd|] eqn:En.
    + rewrite (cache_node_mono _ _ _ En). exact E.
    + destruct Hn as [Hn|Hn]; [|done]. unfold nk_path in E. rewrite (bool_decide_false (nk.2 = [])) in E by done. done.
  - destruct (cache_node rd c nk) as [nd|] eqn:En; [|destruct Hn as [Hn|Hn]; [|done]; unfold nk_path in E; rewrite (bool_decide_false (nk.2 = [])) in E by done; done].
    rewrite (cache_node_mono _ _ _ En). destruct nd as [|i|lf]; [exact E| |exact E].
    unfold insert_at_internal_node in E |- *.
    apply bind_inv in E as ([[res pf] c1] & E1 & E2).
    match goal with |- (?X ≫= _) = _ => assert (E1' : X = Ok (res, pf, c1)) end.
    { destruct (in_child i n) as [ci|]; [|exact E1]. rewrite bind_Ok in E1 |- *. apply bind_inv in E1 as (y & E3 & E4).
      rewrite (IH _ _ _ _ _ _ E3), bind_Ok; [exact E4|]. left. unfold gen_child. cbn. intros Z. by apply app_eq_nil in Z as [_ ?]. }
    rewrite E1', bind_Ok. destruct res as [nk1 nd1| |]; [| |exact E2].
    all: apply bind_inv in E2 as (ch & E3 & E4); rewrite E3, bind_Ok; apply bind_inv in E4 as (c2 & E5 & E6); rewrite E5, bind_Ok.
    all: destruct (children_iter ch) as [|[cn ci] more]; [exact E6|].
    all: destruct (match more with [] => true | _ => false end && c_is_leaf ci); [|exact E6].
    all: cbn zeta in E6 |- *; apply bind_inv in E6 as (cnode & E7 & E8); rewrite (cache_get_mono _ _ _ E7), bind_Ok; exact E8.
Qed.
Lemma put_mono k vh v c x : put H rd k vh v c false = Ok x -> cache_node rd c (tc_root c) <> None -> put H rd' k vh v c false = Ok x.
Proof. unfold put. intros E Hn. apply bind_inv in E as (y & E1 & E2). rewrite (insert_at_mono _ _ _ _ _ _ _ E1), bind_Ok; [exact E2|by right]. Qed.
Lemma freeze_mono c x : cache_freeze H rd c = Ok x -> cache_node rd c (tc_root c) <> None -> cache_freeze H rd' c = Ok x.
Proof.
  unfold cache_freeze. intros E Hn. destruct (cache_node rd c (tc_root c)) as [nd|] eqn:En; [|done]. rewrite (cache_node_mono _ _ _ En).
  rewrite bind_Ok in E |- *. apply bind_inv in E as (rh & E1 & E2). rewrite E1, bind_Ok.
  destruct ((0 <? tc_next c)%N && bool_decide (tc_nodes c = ∅) && bool_decide (tc_stale c = ∅)); [|exact E2].
  apply bind_inv in E2 as (c1 & E2 & E3). apply bind_inv in E2 as (n & E4 & E5). rewrite (cache_get_mono _ _ _ E4), bind_Ok, E5, bind_Ok. exact E3.
Qed.

(** the tree is not empty after any write of the set *)
Definition nonempty M (s : wset) : Prop := forall s1 s2, s = s1 ++ s2 -> s1 <> [] -> mset H M s1 <> ∅.
Lemma root_present v M0 ver0 r0 a c : BaseOK H rd v M0 ver0 r0 c -> VInv H rd v M0 ver0 r0 a c -> a_map a <> ∅ -> cache_node rd c (tc_root c) <> None.
Proof.
  intros BO (_ & _ & V) Ne. destruct a as [M ver ch]. cbn in *. destruct ch.
  - destruct V as [-> [(_ & Ev & I)|[Z _]]]; [|done]. rewrite <- Ev.
    rewrite (inv_read H rd v (T0 H M0 ver0) [] M ver c []); [done|done|by eapply base0_of|]. apply lv_self. by rewrite U_nil.
  - destruct V as (-> & -> & -> & En & _). rewrite cache_node_out by (by rewrite En). destruct BO as (_ & _ & _ & _ & [->|[? _]]); done.
Qed.
Lemma put_set_mono v M0 ver0 r0 s : forall a c c', BaseOK H rd v M0 ver0 r0 c -> VInv H rd v M0 ver0 r0 a c -> cache_node rd c (tc_root c) <> None ->
  nonempty (a_map a) s -> put_set H rd v s c = Ok c' -> put_set H rd' v s c = Ok c' /\ cache_node rd c' (tc_root c') <> None.
Proof.
  induction s as [|[k x] s IH]; intros a c c' BO V Hr Hne E; cbn [put_set] in *; [by injection E as <-|].
  set (c0 := cache_put_value c v k x) in *.
  assert (BO0 : BaseOK H rd v M0 ver0 r0 c0) by (by eapply base_ok_ext; [|exact BO]).
  assert (V0 : VInv H rd v M0 ver0 r0 a c0).
  { destruct V as (V1 & V2 & V3). split; [by eapply cnt_ext|]. split; [done|]. exact V3. }
  assert (Hr0 : cache_node rd c0 (tc_root c0) <> None) by done.
  destruct (put_canon H rd v M0 ver0 r0 a c0 k (H <$> x) BO0 V0) as (pf & c1 & F & V1 & R1 & Pf).
  change (value_hash H <$> x) with (H <$> x) in *. rewrite (F false), bind_Ok in E. rewrite (put_mono _ _ _ _ _ (F false) Hr0), bind_Ok.
  assert (BO1 : BaseOK H rd v M0 ver0 r0 c1) by (eapply base_ok_ext; [|exact BO0]; symmetry; by apply base_rest2).
  apply (IH _ _ _ BO1 V1); [|intros s1 s2 -> N1|done].
  - apply (root_present v M0 ver0 r0 _ _ BO1 V1). rewrite astep_map. apply (Hne [(k, x)] s); [done|done].
  - rewrite astep_map. apply (Hne ((k, x) :: s1) s2); done.
Qed.
Fixpoint nonempties M (sets : list wset) : Prop := match sets with [] => True | s :: l => nonempty M s /\ nonempties (mset H M s) l end.
Lemma put_sets_mono sets : forall v b c c', BInv H rd v b c -> Ready v b c -> nonempties (bt_map b) sets ->
  put_sets H rd v sets c = Ok c' -> put_sets H rd' v sets c = Ok c'.
Proof.
  induction sets as [|s sets IH]; intros v b c c' B R Hne E; cbn [put_sets] in *; [done|].
  destruct (version_next H rd v b c s B R) as (O & pfs & c1 & c2 & P1 & P2 & P3 & P4 & P5 & P6 & P7).
  rewrite P1, bind_Ok, P3, bind_Ok in E. destruct Hne as [Hs Hne].
  assert (Hr : cache_node rd c (tc_root c) <> None).
  { destruct R as ((Z & _) & -> & _). rewrite cache_node_out by (by rewrite Z). destruct B as (_ & _ & _ & _ & ->). done. }
  destruct (put_set_mono v _ _ _ s (ATree (bt_map b) (bt_ver b) false) c c1 (binv_base _ _ _ _ _ B) (ready_vinv _ _ _ _ _ R) Hr Hs P1) as [Q1 Q2].
  rewrite Q1, bind_Ok, (freeze_mono _ _ P3 Q2), bind_Ok. apply (IH _ _ _ _ P7 P5); [|done]. cbn. by rewrite aset_map.
Qed.
Lemma put_sets_mono_first sets c' : (forall nk, rd_node rd nk = None) -> rd_node rd' (nk_root PRE_GENESIS_VERSION) = None -> nonempties ∅ sets ->
  put_sets H rd 0 sets (cache_new rd 0) = Ok c' -> put_sets H rd' 0 sets (cache_new rd' 0) = Ok c'.
Proof.
  intros Hrd Hp Hne E. assert (Ec : cache_new rd' 0 = cache_new rd 0) by (unfold cache_new; cbn [N.eqb]; by rewrite Hrd, Hp). rewrite Ec.
  destruct sets as [|s sets]; cbn [put_sets] in *; [done|].
  destruct (version_first H rd _ s Hrd eq_refl) as (O & pfs & c1 & c2 & P1 & P2 & P3 & P4 & P5 & P6 & P7).
  rewrite P1, bind_Ok, P3, bind_Ok in E. destruct Hne as [Hs Hne]. set (c := cache_new rd 0) in *.
  assert (Ec2 : c = mkCache (nk_root 0) 0 {[ nk_root 0 := Null ]} ∅ 0 ∅ 0 ∅ ∅ ∅ [] []) by (unfold c, cache_new; cbn [N.eqb]; by rewrite Hrd).
  assert (Eb : forall nk, base rd c nk = None) by (intros nk; unfold base; rewrite Ec2; cbn; by rewrite lookup_empty, Hrd).
  assert (NL : forall q, ~ lv [] q ∅) by (intros q L; by apply lv_nil_M in L).
  assert (BO : BaseOK H rd 0 ∅ (fun _ => 0%N) 1 c).
  { split_and!; [done| |done|done|by right]. intros q L. by apply NL in L. }
  assert (V : VInv H rd 0 ∅ (fun _ => 0%N) 1 (ATree ∅ (fun _ => 0%N) true) c).
  { split_and!.
    + split; [rewrite Ec2; cbn [tc_new_leaves tc_nodes]; rewrite map_filter_singleton_False by done; by rewrite map_size_empty|].
      rewrite Ec2. cbn [tc_stale tc_stale_leaves].
      match goal with |- _ = size ?X => assert (X = ∅) as -> by set_solver end. by rewrite size_empty.
    + by rewrite Ec2.
    + cbn. split; [by rewrite Ec2|]. right. split; [done|]. split; [right; by rewrite Ec2|]. intros [w q]. rewrite Ec2. cbn.
      rewrite T0_is. split; [by intros ?%elem_of_empty|]. intros [L _]. by apply NL in L. }
  assert (Hr : cache_node rd c (tc_root c) <> None) by (rewrite Ec2; unfold cache_node; cbn [tc_nodes tc_root]; by rewrite lookup_singleton).
  destruct (put_set_mono 0 _ _ _ s _ c c1 BO V Hr Hs P1) as [Q1 Q2].
  rewrite Q1, bind_Ok, (freeze_mono _ _ P3 Q2), bind_Ok. apply (put_sets_mono sets _ _ _ _ P7 P5); [|done]. unfold vfirst. cbn [after bt_map vs_a a_map].
  by rewrite aset_map.
Qed.
End mono.

(** *** Specification *)
(** No write of the value sets, applied one by one to [m], leaves the tree empty. *)
Fixpoint never_empties (m : gmap key value) (sets : list value_set) : Prop :=
  match sets with
  | [] => True
  | s :: l => (forall s1 s2, s = s1 ++ s2 -> s1 <> [] -> apply_set m s1 <> ∅) /\ never_empties (apply_set m s) l
  end.

Section redo.
Context (H : list byte -> bytes32).
Lemma never_nonempties sets : forall m, never_empties m sets -> nonempties H (H <$> m) sets.
Proof.
  induction sets as [|s sets IH]; intros m; cbn; [done|]. intros [A B]. split.
  - intros s1 s2 E N. rewrite mset_fmap. intros Z. apply fmap_empty_inv in Z. by apply (A s1 s2).
  - rewrite mset_fmap. by apply IH.
Qed.

(** Computing the commit again on a store with any leftovers of an interrupted attempt, even of other value sets, gives the
    batch and the roots of the undisturbed commit, unless the tree is empty after one of the writes. *)
Theorem C61_redo_batch (ops : list op) st xs (sets sets' : list value_set) roots' b' s1 : let n := num_versions ops in
  run H ops = Ok (st, xs) -> put_value_sets H (store_reader st) sets' n = Ok (roots', b') -> partly_written b' st s1 ->
  (n + N.of_nat (length sets') < 2 ^ 64)%N -> never_empties (last_contents (history ops)) sets ->
  put_value_sets H (store_reader s1) sets n = put_value_sets H (store_reader st) sets n /\
  exists roots b, put_value_sets H (store_reader st) sets n = Ok (roots, b).
Proof.
  intros n R E' P Lt Ne. apply run_inv in R as [_ S]. set (tb := xrun H tb0 ops) in *.
  destruct (commit_batch H st tb.1 tb.2 (history ops) (Driver.floor ops) sets S) as (_ & b & pfss & C1 & _). fold n in C1. change (N.of_nat (length (history ops))) with n in C1.
  destruct (commit_batch H st tb.1 tb.2 (history ops) (Driver.floor ops) sets' S) as (T' & b'' & pfss' & C1' & _ & BO' & _). change (N.of_nat (length (history ops))) with n in C1'.
  rewrite E' in C1'. injection C1' as -> <-.
  destruct (commit_ok H st tb.1 tb.2 (history ops) (Driver.floor ops) sets' b' S T' BO') as (D & _).
  split; [|eauto]. rewrite C1.
  assert (Le : forall nk nd, st_nodes st !! nk = Some nd -> st_nodes s1 !! nk = Some nd).
  { clear -P D. induction P as [|s' nk nd P I1 E|s' w k y h P I1 E Ph|s' log P I1 E]; [done| |exact I1|exact I1].
    cbn. intros nk' nd' Ek. rewrite lookup_insert_ne; [by apply I1|]. intros ->. eapply map_disjoint_spec; [exact D|exact E|exact Ek]. }
  pose proof (si_bmap _ _ _ _ _ _ S) as Bm. pose proof (si_len _ _ _ _ _ _ S) as Len.
  apply never_nonempties in Ne. rewrite <- Bm in Ne.
  unfold put_value_sets in C1 |- *. apply bind_inv in C1 as (c & Ec & Ei).
  destruct (decide (tb.1 = [])) as [Et|Et].
  - assert (n = 0%N) as E0 by (unfold n, num_versions; rewrite <- Len, Et; done). rewrite E0 in *.
    assert (Eb : tb.2 = b0).
    { destruct (si_tr _ _ _ _ _ _ S) as [[_ ?]|T]; [done|]. exfalso. destruct T; [done|]. by apply app_eq_nil in Et as [_ ?]. }
    rewrite Eb in Ne.
    assert (Hrd : forall nk, rd_node (store_reader st) nk = None).
    { intros nk. cbn. destruct (st_nodes st !! nk) as [nd|] eqn:E; [|done]. apply (si_nodes _ _ _ _ _ _ S) in E as [(x & Hx & _) _].
      rewrite Et in Hx. by apply elem_of_nil in Hx. }
    assert (Hp : rd_node (store_reader s1) (nk_root PRE_GENESIS_VERSION) = None).
    { cbn. assert (G : forall nk nd, st_nodes s1 !! nk = Some nd -> (nk.1 < 2 ^ 64 - 1)%N).
      { assert (Gb : forall nk nd, tb_nodes b' !! nk = Some nd -> (nk.1 < 2 ^ 64 - 1)%N).
        { intros nk nd E. apply (bo_nodes _ _ _ _ _ BO') in E as (x & (i & Hx)%elem_of_list_lookup & [-> _]).
          pose proof (lookup_lt_Some _ _ _ Hx) as L. rewrite trn_length in L. apply (trn_maps H _ _ _ _ _ _ S) in Hx as [-> _].
          rewrite <- Len, Et. cbn [length]. lia. }
        clear -P Hrd Gb. induction P as [|s' nk nd P I1 E|s' w k y h P I1 E Ph|s' log P I1 E]; [| |exact I1|exact I1].
        - intros nk nd E. cbn in Hrd. congruence.
        - cbn. intros nk' nd' [[-> _]|[_ E']]%lookup_insert_Some; [by eapply Gb|by eapply I1]. }
      destruct (st_nodes s1 !! _) eqn:E; [|done]. apply G in E. unfold nk_root, PRE_GENESIS_VERSION in E. cbn [fst] in E. exfalso. revert E. apply N.lt_irrefl. }
    rewrite (put_sets_mono_first H (store_reader st) (store_reader s1) Le sets c Hrd Hp Ne Ec), bind_Ok. done.
  - destruct (si_binv H st tb.1 tb.2 _ _ S Et) as (B & Rd & _). rewrite Len in B, Rd. change (N.of_nat (length (history ops))) with n in B, Rd.
    assert (Ec' : cache_new (store_reader s1) n = cache_new (store_reader st) n).
    { unfold cache_new. assert (n <> 0%N) by (unfold n, num_versions; rewrite <- Len; destruct tb.1; cbn; [done|lia]). destruct (N.eqb_spec n 0); [done|]. done. }
    rewrite Ec'. rewrite (put_sets_mono H (store_reader st) (store_reader s1) Le sets n _ _ c B Rd Ne Ec), bind_Ok. done.
Qed.

(** the value history with part of the values of version [n] already written *)
Section between.
Context (h0 : gmap key (list (version * option value))) (n : version) (s : value_set).
Context (Old : forall k a, a ∈ default [] (h0 !! k) -> (a.1 < n)%N).
Definition put_in (h : gmap key (list (version * option value))) (k : key) : Prop :=
  exists x, last_write s k = Some x /\ h !! k = Some (default [] (h0 !! k) ++ [(n, x)]).
Definition between (h : gmap key (list (version * option value))) : Prop := forall k, h !! k = h0 !! k \/ put_in h k.
Lemma between_put h w k x h' : between h -> w = n -> last_write s k = Some x -> put_value_hist h w k x = Ok h' ->
  between h' /\ put_in h' k /\ (forall j, put_in h j -> put_in h' j).
Proof.
  intros B -> L E.
  assert (E' : h' = <[ k := default [] (h0 !! k) ++ [(n, x)] ]> h).
  { unfold put_value_hist in E. destruct (B k) as [Ek|(y & Ly & Ek)].
    - rewrite Ek in E. destruct (h0 !! k) as [l|] eqn:E0; [|by injection E as <-].
      destruct (rev l) as [|[lv z] r] eqn:Er; [by injection E as <-|].
      assert ((lv < n)%N) as Lv. { apply (Old k (lv, z)). rewrite E0. cbn. apply elem_of_list_In, in_rev. rewrite Er. by left. }
      assert (N.compare n lv = Gt) as Eg by (by apply N.compare_gt_iff). rewrite Eg in E. by injection E as <-.
    - rewrite Ek, rev_app_distr in E. cbn [rev app] in E. rewrite N.compare_refl in E. injection E as <-. rewrite rev_involutive. congruence. }
  assert (Pk : put_in h' k) by (exists x; rewrite E', lookup_insert; done).
  split; [|split; [done|]].
  - intros j. destruct (decide (j = k)) as [->|N]; [by right|]. destruct (B j) as [Ej|(y & Ly & Ej)]; [left|right; exists y]; rewrite E', lookup_insert_ne by done; done.
  - intros j (y & Ly & Ej). destruct (decide (j = k)) as [->|N]; [done|]. exists y. by rewrite E', lookup_insert_ne.
Qed.
Lemma between_put_ok h w k x : between h -> w = n -> last_write s k = Some x -> exists h', put_value_hist h w k x = Ok h'.
Proof.
  intros B -> L. unfold put_value_hist. destruct (B k) as [Ek|(y & Ly & Ek)].
  - rewrite Ek. destruct (h0 !! k) as [l|] eqn:E0; [|eauto].
    destruct (rev l) as [|[lv z] r] eqn:Er; [eauto|].
    assert ((lv < n)%N) as Lv. { apply (Old k (lv, z)). rewrite E0. cbn. apply elem_of_list_In, in_rev. rewrite Er. by left. }
    assert (N.compare n lv = Gt) as -> by (by apply N.compare_gt_iff). eauto.
  - rewrite Ek, rev_app_distr. cbn [rev app]. rewrite N.compare_refl. eauto.
Qed.
Lemma between_write l : forall h, between h -> (forall w k x, ((w, k), x) ∈ l -> w = n /\ last_write s k = Some x) ->
  exists h', write_values h l = Ok h' /\ between h' /\ (forall j, put_in h j \/ j ∈ (l.*1).*2 -> put_in h' j).
Proof.
  induction l as [|[[w k] x] l IH]; intros h B Hl; cbn [write_values].
  - exists h. split; [done|]. split; [done|]. intros j [?|?%elem_of_nil]; done.
  - destruct (Hl w k x) as [-> Lk]; [by left|]. destruct (between_put_ok h n k x B eq_refl Lk) as (h1 & E1). rewrite E1, bind_Ok.
    destruct (between_put h n k x h1 B eq_refl Lk E1) as (B1 & Pk & Pj).
    destruct (IH h1 B1) as (h' & E2 & B2 & P2); [intros w' k' x' ?; apply Hl; by right|].
    exists h'. split; [done|]. split; [done|]. cbn. intros j [Q|Q]; [apply P2; left; by apply Pj|]. apply elem_of_cons in Q as [->|Q]; apply P2; [by left|by right].
Qed.
Lemma between_full h h' : between h -> between h' -> (forall k, is_Some (last_write s k) -> put_in h k /\ put_in h' k) -> h = h'.
Proof.
  intros B B' F. apply map_eq. intros k. destruct (last_write s k) as [x|] eqn:E.
  - destruct (F k) as [(y & Ly & ->) (z & Lz & ->)]; [done|]. congruence.
  - destruct (B k) as [->|(y & Ly & _)]; [|congruence]. destruct (B' k) as [->|(y & Ly & _)]; [done|congruence].
Qed.
End between.

(** The same single version done again, when no stale node index was written yet: the store of the undisturbed commit. *)
Theorem C61_redo_same (ops : list op) st xs (s : value_set) st1 roots b s1 : let n := num_versions ops in
  run H ops = Ok (st, xs) -> step H st n (Commit [s]) = Ok (st1, OutCommit roots b) -> partly_written b st s1 -> st_stale s1 = st_stale st ->
  (n + 1 < 2 ^ 64)%N -> never_empties (last_contents (history ops)) [s] ->
  redo H s1 [s] n = Ok (mkStore (st_nodes st1) (st_stale st1) (st_history st1) true, roots).
Proof.
  intros n R E P Es Lt Ne. cbn [step] in E. apply bind_inv in E as ([roots0 b0] & E1 & E2). apply bind_inv in E2 as (st0 & E2 & E3).
  injection E3 as -> -> ->.
  destruct (C61_redo_batch ops st xs [s] [s] roots b s1 R E1 P Lt Ne) as (Eb & _). fold n in Eb.
  unfold redo. rewrite Eb, E1, bind_Ok. cbn beta iota.
  apply run_inv in R as [_ S]. set (tb := xrun H tb0 ops) in *.
  destruct (commit_batch H st tb.1 tb.2 (history ops) (Driver.floor ops) [s] S) as (T & b' & pfss & C1 & _ & BO & _). change (N.of_nat (length (history ops))) with n in C1.
  rewrite E1 in C1. injection C1 as _ <-.
  destruct (commit_ok H st tb.1 tb.2 (history ops) (Driver.floor ops) [s] b S T BO) as (D & _).
  assert (Vb : forall w k x, tb_values b !! (w, k) = Some x <-> w = n /\ last_write s k = Some x).
  { intros w k x. rewrite (bo_values _ _ _ _ _ BO), bvals_lookup by (intros; apply lookup_empty). rewrite lookup_empty. cbn [hl].
    change (N.of_nat (length (history ops))) with n. destruct (last_write s k) as [y|]; [|split; [intros [?%elem_of_nil|?]; done|intros [_ ?]; done]].
    rewrite elem_of_list_singleton. naive_solver. }
  assert (Old : forall k a, a ∈ default [] (st_history st !! k) -> (a.1 < n)%N).
  { intros k [w x]. rewrite (si_hist _ _ _ _ _ _ S k). intros Hl. apply hl_lt in Hl. cbn. unfold n, num_versions. lia. }
  set (bet := between (st_history st) n s).
  assert (I : bet (st_history s1) /\ st_nodes s1 ⊆ tb_nodes b ∪ st_nodes st /\ st_nodes st ⊆ st_nodes s1).
  { clear -P D Vb Old. induction P as [|s' nk nd P (I1 & I2 & I3) E|s' w k y h P (I1 & I2 & I3) E Ph|s' log P I E]; [| | |exact I].
    - split; [intros k; by left|]. split; [by apply map_union_subseteq_r|done].
    - cbn. split; [exact I1|]. split.
      + apply insert_subseteq_l; [|done]. by apply lookup_union_Some_l.
      + apply insert_subseteq_r; [|done]. destruct (st_nodes st !! nk) eqn:E2; [|done]. exfalso. eapply map_disjoint_spec; [exact D|exact E|exact E2].
    - cbn. split; [|done]. apply Vb in E as [-> Lk]. by eapply (between_put _ _ _ Old).
  }
  destruct I as (I1 & I2 & I3).
  assert (Hv : forall w k x, ((w, k), x) ∈ sorted_values (tb_values b) -> w = n /\ last_write s k = Some x).
  { intros w k x Hl. apply Vb. by apply elem_of_sorted_values. }
  destruct (between_write _ n s Old _ _ I1 Hv) as (h2 & W2 & B2 & F2).
  destruct (between_write _ n s Old (sorted_values (tb_values b)) (st_history st) (fun k => or_introl eq_refl) Hv) as (h1 & W1 & B1 & F1).
  assert (h1 = h2) as <-.
  { eapply (between_full _ n s); [exact B1|exact B2|]. intros k [x Lk].
    assert (Hk : k ∈ ((sorted_values (tb_values b)).*1).*2).
    { apply elem_of_list_fmap. exists (n, k). split; [done|]. apply elem_of_list_fmap. exists ((n, k), x). split; [done|]. apply elem_of_sorted_values. by apply Vb. }
    split; [apply F1|apply F2]; by right. }
  unfold write_tree_update_batch, write_node_batch in E2 |- *. cbn [st_nodes st_stale st_history st_overwrite] in *.
  rewrite W1 in E2. rewrite W2. destruct (assert_ _) in E2; [|done..]. cbn [orb]. rewrite !bind_Ok in E2. cbn [st_nodes st_stale st_history st_overwrite] in *.
  change (assert_ true) with (Ok tt). rewrite !bind_Ok. cbn [st_nodes st_stale st_history st_overwrite]. rewrite Es.
  destruct (ensure_ _ _) as [u| |]; [|done..]. rewrite bind_Ok in E2 |- *. injection E2 as <-. cbn [st_nodes st_stale st_history].
  assert (En : tb_nodes b ∪ st_nodes s1 = tb_nodes b ∪ st_nodes st).
  { apply map_eq. intros nk. rewrite !lookup_union. destruct (tb_nodes b !! nk) eqn:Eb'; [by destruct (st_nodes s1 !! nk), (st_nodes st !! nk)|].
    f_equal. destruct (st_nodes s1 !! nk) as [nd|] eqn:En1.
    - eapply lookup_weaken in En1; [|exact I2]. apply lookup_union_Some_raw in En1 as [?|[_ ?]]; congruence.
    - destruct (st_nodes st !! nk) eqn:En0; [|done]. eapply lookup_weaken in En0; [|exact I3]. congruence. }
  by rewrite En.
Qed.
End redo.

(** The hypotheses are met: on the demo history, the new root node written and nothing else. *)
Example redo_demo H st xs : run H demo = Ok (st, xs) -> exists st1 roots b nd, step H st 5 (Commit [[(K00, None)]]) = Ok (st1, OutCommit roots b) /\
  let s' := mkStore (<[ (5%N, []) := nd ]> (st_nodes st)) (st_stale st) (st_history st) (st_overwrite st) in
  partly_written b st s' /\ redo H s' [[(K00, None)]] 5 = Ok (mkStore (st_nodes st1) (st_stale st1) (st_history st1) true, roots).
Proof.
  intros R. destruct (crash_root H demo st xs [(K00, None)] R) as (st1 & roots & b & nd & E & En).
  replace (num_versions demo) with 5%N in * by reflexivity. exists st1, roots, b, nd. split; [exact E|].
  assert (P : partly_written b st (mkStore (<[ (5%N, []) := nd ]> (st_nodes st)) (st_stale st) (st_history st) (st_overwrite st))).
  { refine (pw_node b st st (5%N, []) nd _ En). constructor. }
  split; [exact P|].
  refine (C61_redo_same H demo st xs [(K00, None)] st1 roots b _ R _ P eq_refl _ _); [replace (num_versions demo) with 5%N by reflexivity; exact E|vm_compute; reflexivity|].
  split; [|exact I]. intros s1 s2 Es N. destruct s1 as [|w s1]; [exfalso; exact (N eq_refl)|]. injection Es as <- Es. symmetry in Es. apply app_eq_nil in Es as [-> _].
  assert (Z : apply_set (last_contents (history demo)) [(K00, None)] !! K80 = Some va) by (vm_compute; reflexivity).
  intros Q. rewrite Q, lookup_empty in Z. discriminate Z.
Qed.

(** The two limits of [C61_redo_same] are real: with a stale node index already written, or with values of a later version
    already written, the commit cannot be redone at all. *)
Definition redo_check3 (H : list byte -> bytes32) (r0 : outcome (store * list out)) (sets : list value_set) (n : version) (msg : string) : bool :=
  match r0 with
  | Ok (st, _) =>
      match put_value_sets H (store_reader st) sets n with
      | Ok (_, b) =>
          match write_tree_update_batch st b with
          | Ok s1 => match redo H s1 sets n with Err (EOther m) => bool_decide (m = msg) | _ => false end
          | _ => false end
      | _ => false end
  | _ => false end.
Lemma redo_ex3 H r0 sets n msg : redo_check3 H r0 sets n msg = true -> exists st xs roots b s1, r0 = Ok (st, xs) /\
  put_value_sets H (store_reader st) sets n = Ok (roots, b) /\ write_tree_update_batch st b = Ok s1 /\ redo H s1 sets n = Err (EOther msg).
Proof.
  unfold redo_check3. intros E. destruct r0 as [[st xs]| |]; [|done..]. destruct (put_value_sets H (store_reader st) sets n) as [[roots b]| |] eqn:E1; [|done..].
  destruct (write_tree_update_batch st b) as [s1| |] eqn:E2; [|done..]. destruct (redo H s1 sets n) as [?|[]|] eqn:E3; try done.
  apply bool_decide_eq_true in E as ->. exists st, xs, roots, b, s1. done.
Qed.
Theorem C61_redo_stale_refuted : exists H ops st xs s roots b s1, let n := num_versions ops in
  run H ops = Ok (st, xs) /\ never_empties (last_contents (history ops)) [s] /\ put_value_sets H (store_reader st) [s] n = Ok (roots, b) /\
  partly_written b st s1 /\ redo H s1 [s] n = Err (EOther "Duplicated retire log.").
Proof.
  set (ops := [Commit [[(K00, Some va)]]]). set (s := [(K80, Some vb)] : value_set).
  destruct (redo_ex3 toy (run toy ops) [s] 1 "Duplicated retire log.") as (st & xs & roots & b & s1 & R & E1 & E2 & E3); [vm_compute; reflexivity|].
  exists toy, ops, st, xs, s, roots, b, s1. cbv zeta. replace (num_versions ops) with 1%N by reflexivity.
  split; [exact R|]. split; [|split; [exact E1|split; [by apply C60_complete_write_covered|exact E3]]].
  split; [|exact I]. intros s1' s2 Es N. destruct s1' as [|w s1']; [exfalso; exact (N eq_refl)|]. injection Es as <- Es. symmetry in Es. apply app_eq_nil in Es as [-> _].
  apply insert_non_empty.
Qed.
Theorem C61_redo_two_versions_refuted : exists H ops st xs sets roots b s1, let n := num_versions ops in
  run H ops = Ok (st, xs) /\ never_empties (last_contents (history ops)) sets /\ put_value_sets H (store_reader st) sets n = Ok (roots, b) /\
  partly_written b st s1 /\ redo H s1 sets n = Err (EOther "values must be pushed in order").
Proof.
  set (ops := [Commit [[(K00, Some va)]]]). set (sets := [[(K80, Some vb)]; [(K80, Some va)]] : list value_set).
  destruct (redo_ex3 toy (run toy ops) sets 1 "values must be pushed in order") as (st & xs & roots & b & s1 & R & E1 & E2 & E3); [vm_compute; reflexivity|].
  exists toy, ops, st, xs, sets, roots, b, s1. cbv zeta. replace (num_versions ops) with 1%N by reflexivity.
  split; [exact R|]. split; [|split; [exact E1|split; [by apply C60_complete_write_covered|exact E3]]].
  split; [|split; [|exact I]]; intros s1' s2 Es N; (destruct s1' as [|w s1']; [exfalso; exact (N eq_refl)|]); injection Es as <- Es; symmetry in Es; apply app_eq_nil in Es as [-> _];
  apply insert_non_empty.
Qed.
