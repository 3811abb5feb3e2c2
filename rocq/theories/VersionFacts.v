(** One version and a batch of versions: put_set, freeze, put_sets. *)
From Verif Require Import Base Spec NodeType ProofDef TreeCache Tree KeyFacts SmtFacts ProofFacts NodeFacts Canon CanonSib ReadFacts PutFacts InsertFacts InsertInt InsertInt2 PutTop.
From Coq Require Import Lia.
Local Opaque Spec.smt.
Notation wset := (list (bytes32 * option (list byte))) (only parsing).

(** the last write to [k] in a value set *)
Definition last_write (s : wset) (k : key) : option (option value) :=
  fold_left (fun acc w => if decide (w.1 = k) then Some w.2 else acc) s None.
Lemma last_write_snoc s w k : last_write (s ++ [w]) k = if decide (w.1 = k) then Some w.2 else last_write s k.
Proof. unfold last_write. by rewrite fold_left_app. Qed.
Lemma apply_set_lookup (s : wset) (m : gmap key value) k : apply_set m s !! k = match last_write s k with Some x => x | None => m !! k end.
Proof.
  induction s as [|w s IH] using rev_ind; [done|]. unfold apply_set in *. rewrite fold_left_app. cbn [fold_left].
  rewrite last_write_snoc. unfold apply_write. destruct (w.2) as [x|] eqn:E; case_decide as D.
  - by rewrite D, lookup_insert.
  - by rewrite lookup_insert_ne.
  - by rewrite D, lookup_delete.
  - by rewrite lookup_delete_ne.
Qed.

Section ver.
Context (H : list byte -> bytes32).
Implicit Types (M : gmap key vhash) (ver : list nibble -> version) (p q : list nibble).
Notation T0 := (T0 H).

Definition aset (v : version) (a : atree) (s : wset) : atree :=
  fold_left (fun a w => astep v a (w.1, H <$> w.2)) s a.
Definition vset (v : version) (s : wset) (vals : gmap (version * key) (option value)) :=
  fold_left (fun m w => <[ (v, w.1) := w.2 ]> m) s vals.
Lemma vset_lookup v s vals w k : vset v s vals !! (w, k) =
  if decide (w = v) then match last_write s k with Some x => Some x | None => vals !! (w, k) end else vals !! (w, k).
Proof.
  induction s as [|x s IH] using rev_ind; [by case_decide|]. unfold vset in *. rewrite fold_left_app. cbn [fold_left].
  rewrite last_write_snoc. case_decide as Dw.
  - subst w. destruct (decide (x.1 = k)) as [<-|Hne]; [by rewrite lookup_insert|]. rewrite lookup_insert_ne by congruence. done.
  - rewrite lookup_insert_ne by congruence. done.
Qed.

(** the map after a value set *)
Definition mset M (s : wset) : gmap key vhash := fold_left (fun M w => apply_vh M w.1 (H <$> w.2)) s M.
Lemma astep_map v a w : a_map (astep v a w) = apply_vh (a_map a) w.1 w.2.
Proof. unfold astep. case_decide as N; [|done]. destruct N as [-> E]. cbn. by rewrite delete_notin. Qed.
Lemma aset_map v s : forall a, a_map (aset v a s) = mset (a_map a) s.
Proof. induction s as [|w s IH]; intros a; [done|]. unfold aset, mset in *. cbn [fold_left]. by rewrite IH, astep_map. Qed.
Lemma mset_fmap (s : wset) : forall m : gmap key value, mset (H <$> m) s = H <$> apply_set m s.
Proof.
  induction s as [|w s IH]; intros m; [done|]. unfold mset, apply_set in *. cbn [fold_left]. rewrite <- IH. f_equal.
  unfold apply_write. destruct (w.2); cbn; [by rewrite fmap_insert|by rewrite fmap_delete].
Qed.
Lemma aset_ch v s : forall a, a_ch a = true -> a_ch (aset v a s) = true.
Proof. induction s as [|w s IH]; intros a E; [done|]. unfold aset in *. cbn [fold_left]. apply IH. unfold astep. by case_decide. Qed.

(** the proofs returned for a value set *)
Fixpoint pfs_ok M (s : wset) (pfs : list sm_proof) : Prop :=
  match s, pfs with
  | [], [] => True
  | w :: s', pf :: pfs' =>
      (if decide (noop M w.1 (H <$> w.2)) then pf = SMProof None []
       else exists n, term M w.1 n /\ pf = hproof H M w.1 n) /\
      pfs_ok (apply_vh M w.1 (H <$> w.2)) s' pfs'
  | _, _ => False
  end.

Definition rest3 (c : cache) := (tc_next c, fz_nodes c, fz_values c, fz_stale c, fz_stats c, fz_roots c).

Lemma put_set_canon rd v M0 ver0 r0 s : forall a c, BaseOK H rd v M0 ver0 r0 c -> VInv H rd v M0 ver0 r0 a c ->
  exists pfs c', put_set H rd v s c = Ok c' /\ put_set_with_proof H rd v s c = Ok (pfs, c') /\
    VInv H rd v M0 ver0 r0 (aset v a s) c' /\ rest3 c' = rest3 c /\ tc_values c' = vset v s (tc_values c) /\ pfs_ok (a_map a) s pfs.
Proof.
  induction s as [|[k x] s IH]; intros a c BO V; [by exists [], c|].
  set (c0 := cache_put_value c v k x).
  assert (BO0 : BaseOK H rd v M0 ver0 r0 c0) by (by eapply base_ok_ext; [|exact BO]).
  assert (V0 : VInv H rd v M0 ver0 r0 a c0).
  { destruct V as (V1 & V2 & V3). split; [by eapply cnt_ext|]. split; [done|]. exact V3. }
  destruct (put_canon H rd v M0 ver0 r0 a c0 k (H <$> x) BO0 V0) as (pf & c1 & F & V1 & R1 & Pf).
  assert (BO1 : BaseOK H rd v M0 ver0 r0 c1).
  { eapply base_ok_ext; [|exact BO0]. symmetry. by apply base_rest2. }
  destruct (IH _ c1 BO1 V1) as (pfs & c' & F1 & F2 & F3 & F4 & F5 & F6).
  unfold rest2 in R1. cbn in R1. injection R1 as Q1 Q2 Q3 Q4 Q5 Q6 Q7. unfold rest3 in F4. injection F4 as Y1 Y2 Y3 Y4 Y5 Y6.
  exists (pf :: pfs), c'. split.
  { cbn [put_set]. fold c0. change (value_hash H <$> x) with (H <$> x). rewrite (F false), bind_Ok. exact F1. }
  split.
  { cbn [put_set_with_proof]. fold c0. change (value_hash H <$> x) with (H <$> x). rewrite (F true), bind_Ok. cbn [with_pf unwrap]. rewrite bind_Ok, F2, bind_Ok. done. }
  split; [exact F3|]. split; [unfold rest3; congruence|]. split; [|split; [done|]; by rewrite astep_map in F6].
  rewrite F5. unfold vset. cbn [fold_left]. f_equal. exact Q2.
Qed.

(** a version written: number, tree before (map, versions, root version), tree after *)
Record vstate : Type := VS { vs_v : version; vs_M0 : gmap key vhash; vs_ver0 : list nibble -> version; vs_r0 : version; vs_a : atree }.
(** the nodes the version adds, and the node keys it makes stale *)
Definition nodes_of (x : vstate) (nk : nodekey) (nd : node) : Prop :=
  nk.1 = vs_v x /\ nd = node_at H (a_map (vs_a x)) (a_ver (vs_a x)) nk.2 /\
  (nk.2 = [] \/ lv [] nk.2 (a_map (vs_a x)) /\ a_ver (vs_a x) nk.2 = vs_v x).
Definition stale_of (x : vstate) (nk : nodekey) : Prop :=
  (lv [] nk.2 (vs_M0 x) /\ vs_ver0 x nk.2 = nk.1) /\ ~ (lv [] nk.2 (a_map (vs_a x)) /\ a_ver (vs_a x) nk.2 = nk.1).
Definition stats_of (x : vstate) (st : node_stats) : Prop := exists (N : gmap nodekey node) (S : gset nodekey),
  (forall nk nd, N !! nk = Some nd <-> nodes_of x nk nd) /\ (forall nk, nk ∈ S <-> stale_of x nk) /\
  st = mkStats (size N) (size (filter (fun kn => node_is_leaf kn.2 = true) N))
               (size S) (size (filter (fun nk => leafy (T0 (vs_M0 x) (vs_ver0 x) nk) = true) S)).
(** facts about the tree after: live nodes are new or unchanged *)
Definition vs_ok (x : vstate) : Prop :=
  let M := a_map (vs_a x) in let ver := a_ver (vs_a x) in
  (forall q, lv [] q M -> ver q = vs_v x \/ lv [] q (vs_M0 x) /\ vs_ver0 x q = ver q /\ node_at H M ver q = node_at H (vs_M0 x) (vs_ver0 x) q) /\
  (M <> ∅ -> ver [] = if a_ch (vs_a x) then vs_v x else vs_r0 x) /\
  (a_ch (vs_a x) = false -> M = vs_M0 x /\ ver = vs_ver0 x).

Definition clean (c : cache) : Prop :=
  tc_nodes c = ∅ /\ tc_values c = ∅ /\ tc_new_leaves c = 0 /\ tc_stale c = ∅ /\ tc_stale_leaves c = 0.

Lemma filter_stale_ext (rd : reader) (c : cache) M0 ver0 (S : gset nodekey) : (forall x, x ∈ S -> is_Some (T0 M0 ver0 x)) -> 
  (forall nk nd, T0 M0 ver0 nk = Some nd -> base rd c nk = Some nd) ->
  filter (fun nk => leafy (base rd c nk) = true) S = filter (fun nk => leafy (T0 M0 ver0 nk) = true) S.
Proof.
  intros HS HB. apply set_eq. intros x. rewrite !elem_of_filter. split; intros [E Hx]; (split; [|done]); destruct (HS x Hx) as [nd En].
  - rewrite (HB _ _ En) in E. by rewrite En.
  - rewrite (HB _ _ En). by rewrite En in E.
Qed.

Lemma freeze_canon rd v M0 ver0 r0 a c : BaseOK H rd v M0 ver0 r0 c -> VInv H rd v M0 ver0 r0 a c ->
  (a_ch a = false -> (0 < v)%N /\ base rd c (r0, []) = Some (node_at H M0 ver0 [])) ->
  let x := VS v M0 ver0 r0 a in
  vs_ok x /\ exists (c' : cache) (N : gmap nodekey node) (S : gset nodekey) (st : node_stats), cache_freeze H rd c = Ok c' /\ clean c' /\
    tc_root c' = (if a_ch a then v else r0, []) /\ tc_next c' = (v + 1)%N /\
    fz_nodes c' = N ∪ fz_nodes c /\ fz_values c' = tc_values c ∪ fz_values c /\
    fz_stale c' = set_map (pair v) S ∪ fz_stale c /\ fz_stats c' = fz_stats c ++ [st] /\
    fz_roots c' = fz_roots c ++ [ms H [] (a_map a)] /\
    (forall nk nd, N !! nk = Some nd <-> nodes_of x nk nd) /\ (forall nk, nk ∈ S <-> stale_of x nk) /\ stats_of x st.
Proof.
  intros BO V Hb x. destruct a as [M ver ch].
  pose proof (base0_of H rd v M0 ver0 r0 c BO) as B0.
  assert (HB : forall nk nd, T0 M0 ver0 nk = Some nd -> base rd c nk = Some nd) by (intros nk nd E; by apply B0 in E as [_ E]).
  assert (Hf : forall (c1 : cache) (N : gmap nodekey node) (S : gset nodekey) (r : version), cnt_ok rd c1 -> rest2 c1 = rest2 c -> tc_nodes c1 = N -> tc_stale c1 = S -> tc_root c1 = (r, []) ->
     (forall nk nd, N !! nk = Some nd <-> nodes_of x nk nd) -> (forall nk, nk ∈ S <-> stale_of x nk) ->
     stats_of x (mkStats (size (tc_nodes c1)) (tc_new_leaves c1) (size (tc_stale c1)) (tc_stale_leaves c1))).
  { intros c1 N S r [C1 C2] R <- <- _ HN HS. exists (tc_nodes c1), (tc_stale c1). split; [done|]. split; [done|].
    rewrite C1, C2. f_equal. f_equal. rewrite (base_rest2 rd c1 c R). apply filter_stale_ext; [|done].
    intros [w q] Hx. apply HS in Hx as [Hx _]. by apply T0_is. }
  assert (Hroot : forall M ver, node_hash H (node_at H M ver []) = Ok (ms H [] M)).
  { intros. rewrite node_hash_canon. done. }
  pose proof V as (Vc & Vn & V2). destruct ch; cbn [a_ch a_map a_ver] in *.
  - destruct V2 as [Er [(Ne & Ev & I)|(-> & En & Es)]].
    + assert (L0 : lv [] [] M) by (apply lv_self; by rewrite U_nil).
      assert (HN : forall nk nd, tc_nodes c !! nk = Some nd <-> nodes_of x nk nd).
      { intros [w q] nd. destruct I as (I & _). rewrite I by apply prefix_nil. unfold nodes_of. cbn. split.
        - intros (-> & L & E & ->). eauto.
        - intros (-> & -> & [->|[L E]]); done. }
      assert (HS : forall nk, nk ∈ tc_stale c <-> stale_of x nk).
      { intros [w q]. destruct I as (_ & I & _). rewrite I by apply prefix_nil. rewrite T0_is. done. }
      assert (Rt : tc_nodes c !! (v, []) = Some (node_at H M ver [])) by (by apply I).
      split.
      { split_and!; cbn; [|done|done]. intros q L. destruct (decide (ver q = v)) as [|Hne]; [by left|right].
        destruct I as (_ & _ & I). specialize (I q L Hne). apply T0_some in I. cbn in I. destruct I as (A1 & A2 & A3). done. }
      eexists _, (tc_nodes c), (tc_stale c), _. split.
      { unfold cache_freeze. rewrite Er. rewrite (cache_node_in rd c (v, []) _ Rt), bind_Ok. cbv beta iota. rewrite Hroot, bind_Ok.
        rewrite Vn. rewrite (bool_decide_false (tc_nodes c = ∅)) by (intros Z; by rewrite Z in Rt). rewrite andb_false_r. cbn [andb]. rewrite bind_Ok. rewrite Vn.
        reflexivity. }
      cbn. split_and!; try done. by eapply (Hf c).
    + assert (Rt : exists c1, match cache_node rd c (v, []) with
           | Some n => Ok (c, n)
           | None => c' ← cache_put_node c (v, []) Null; Ok (c', Null) end = Ok (c1, Null) /\
           tc_nodes c1 = {[ (v, []) := Null ]} /\ tc_stale c1 = tc_stale c /\ rest c1 = rest c /\ cnt_ok rd c1).
      { destruct En as [En|En].
        - rewrite cache_node_out by (by rewrite En). destruct BO as (BO & _). rewrite BO.
          destruct (put_ok rd c (v, []) Null) as (c1 & P1 & P2 & P3 & P4 & P5); [by rewrite En|done|].
          exists c1. rewrite P1, bind_Ok. split; [done|]. rewrite P2, En. done.
        - rewrite (cache_node_in rd c (v, []) Null) by (rewrite En; apply lookup_singleton). by exists c. }
      destruct Rt as (c1 & Rt & En1 & Es1 & R1 & C1).
      assert (NL : forall q, ~ lv [] q ∅) by (intros q L; by apply lv_nil_M in L).
      assert (Nn : node_at H ∅ ver [] = Null) by (apply node_at_null, U_nil).
      assert (HN : forall nk nd, tc_nodes c1 !! nk = Some nd <-> nodes_of x nk nd).
      { intros [w q] nd. rewrite En1, lookup_singleton_Some. unfold nodes_of. cbn. split.
        - intros [[= <- <-] <-]. rewrite Nn. eauto.
        - intros (-> & -> & [->|[L _]]); [by rewrite Nn|]. by apply NL in L. }
      assert (HS : forall nk, nk ∈ tc_stale c1 <-> stale_of x nk).
      { intros [w q]. rewrite Es1, Es, T0_is. unfold stale_of. cbn. split; [|by intros [? _]]. intros E. split; [done|]. intros [L _]. by apply NL in L. }
      split.
      { split_and!; cbn; [|done|done]. intros q L. by apply NL in L. }
      assert (F1 : fz_nodes c1 = fz_nodes c) by (unfold rest in R1; congruence).
      assert (F2 : fz_values c1 = fz_values c) by (unfold rest in R1; congruence).
      assert (F3 : fz_stale c1 = fz_stale c) by (unfold rest in R1; congruence).
      assert (F4 : fz_stats c1 = fz_stats c) by (unfold rest in R1; congruence).
      assert (F5 : fz_roots c1 = fz_roots c) by (unfold rest in R1; congruence).
      assert (F6 : tc_values c1 = tc_values c) by (unfold rest in R1; congruence).
      assert (F7 : tc_next c1 = v) by (unfold rest in R1; congruence).
      assert (F8 : tc_root c1 = (v, [])) by (unfold rest in R1; congruence).
      eexists _, (tc_nodes c1), (tc_stale c1), _. split.
      { unfold cache_freeze. rewrite Er. rewrite Rt, bind_Ok. cbv beta iota. cbn [node_hash]. rewrite bind_Ok.
        rewrite F7. rewrite (bool_decide_false (tc_nodes c1 = ∅)) by (rewrite En1; apply map_non_empty_singleton). rewrite andb_false_r. cbn [andb]. rewrite bind_Ok. rewrite F7.
        reflexivity. }
      cbn. rewrite F1, F2, F3, F4, F5, F6, F8, ms_empty by (by rewrite under_nil). split_and!; try done. apply (Hf c1 (tc_nodes c1) (tc_stale c1) v); try done. by apply rest_rest2.
  - destruct V2 as (-> & -> & Er & En & Es). destruct (Hb eq_refl) as [Hv Hbr].
    assert (Rt : cache_node rd c (r0, []) = Some (node_at H M0 ver0 [])) by (rewrite cache_node_out; [done|by rewrite En]).
    destruct (put_ok rd c (v, []) (node_at H M0 ver0 [])) as (c1 & P1 & P2 & P3 & P4 & P5); [by rewrite En|done|].
    assert (HN : forall nk nd, tc_nodes c1 !! nk = Some nd <-> nodes_of x nk nd).
    { intros [w q] nd. rewrite P2, En, insert_empty, lookup_singleton_Some. unfold nodes_of. cbn. split.
      - intros [[= <- <-] <-]. eauto.
      - intros (-> & -> & [->|[L E]]); [done|]. apply BO in L as [L _]. done. }
    assert (HS : forall nk, nk ∈ tc_stale c1 <-> stale_of x nk).
    { intros [w q]. rewrite P3, Es. unfold stale_of. cbn. split; [by intros ?%elem_of_empty|]. intros [? ?]. done. }
    split.
    { split_and!; cbn; [|intros; by apply BO|done]. intros q L. right. done. }
    assert (F1 : fz_nodes c1 = fz_nodes c) by (unfold rest in P4; congruence).
    assert (F2 : fz_values c1 = fz_values c) by (unfold rest in P4; congruence).
    assert (F3 : fz_stale c1 = fz_stale c) by (unfold rest in P4; congruence).
    assert (F4 : fz_stats c1 = fz_stats c) by (unfold rest in P4; congruence).
    assert (F5 : fz_roots c1 = fz_roots c) by (unfold rest in P4; congruence).
    assert (F6 : tc_values c1 = tc_values c) by (unfold rest in P4; congruence).
    assert (F7 : tc_next c1 = v) by (unfold rest in P4; congruence).
    assert (F8 : tc_root c1 = (r0, [])) by (unfold rest in P4; congruence).
    eexists _, (tc_nodes c1), (tc_stale c1), _. split.
    { unfold cache_freeze. rewrite Er. rewrite Rt, bind_Ok. cbv beta iota. rewrite Hroot, bind_Ok.
      rewrite Vn. rewrite (bool_decide_true (tc_nodes c = ∅)), (bool_decide_true (tc_stale c = ∅)) by done.
      replace (0 <? v)%N with true by (symmetry; by apply N.ltb_lt). cbn [andb]. unfold cache_get_node. rewrite Er, Rt. cbn [ok_or]. rewrite bind_Ok.
      unfold nk_set_version. cbn [snd]. rewrite P1, bind_Ok, F7. reflexivity. }
    cbn. rewrite F1, F2, F3, F4, F5, F6, F8. split_and!; try done. apply (Hf c1 (tc_nodes c1) (tc_stale c1) r0); try done. by apply rest_rest2.
Qed.

(** *** versions in sequence *)
Record btree : Type := BT { bt_map : gmap key vhash; bt_ver : list nibble -> version; bt_root : version }.
Definition after (x : vstate) : btree :=
  BT (a_map (vs_a x)) (a_ver (vs_a x)) (if a_ch (vs_a x) then vs_v x else vs_r0 x).
Definition vnext (v : version) (b : btree) (s : wset) : vstate :=
  VS v (bt_map b) (bt_ver b) (bt_root b) (aset v (ATree (bt_map b) (bt_ver b) false) s).
(** version 0 starts from a cache that already holds an empty root *)
Definition vfirst (s : wset) : vstate := VS 0 ∅ (fun _ => 0%N) 1 (aset 0 (ATree ∅ (fun _ => 0%N) true) s).
Fixpoint trace (v : version) (b : btree) (sets : list wset) : list vstate :=
  match sets with [] => [] | s :: l => vnext v b s :: trace (v + 1) (after (vnext v b s)) l end.
Definition last_bt (b : btree) (tr : list vstate) : btree := match last tr with Some x => after x | None => b end.

Definition Fresh (rd : reader) (v : version) (c : cache) : Prop := forall w q, (v <= w)%N -> base rd c (w, q) = None.
Definition BInv (rd : reader) (v : version) (b : btree) (c : cache) : Prop :=
  Fresh rd v c /\
  (forall q, lv [] q (bt_map b) -> (bt_ver b q < v)%N /\ base rd c (bt_ver b q, q) = Some (node_at H (bt_map b) (bt_ver b) q)) /\
  (bt_map b <> ∅ -> bt_ver b [] = bt_root b) /\ (bt_root b < v)%N /\ base rd c (bt_root b, []) = Some (node_at H (bt_map b) (bt_ver b) []).
Definition Ready (v : version) (b : btree) (c : cache) : Prop := clean c /\ tc_root c = (bt_root b, []) /\ tc_next c = v.
Lemma binv_base rd v b c : BInv rd v b c -> BaseOK H rd v (bt_map b) (bt_ver b) (bt_root b) c.
Proof.
  intros (F & L & R1 & R2 & R3). split_and!; [intros q; by apply F| |done|lia|by left].
  intros q Hq. apply L in Hq as [? ?]. split; [lia|done].
Qed.
Lemma ready_vinv rd v b c : Ready v b c -> VInv H rd v (bt_map b) (bt_ver b) (bt_root b) (ATree (bt_map b) (bt_ver b) false) c.
Proof.
  intros ((E1 & E2 & E3 & E4 & E5) & Er & En). split; [|split; [done|cbn; done]].
  split; [by rewrite E3, E1, map_filter_empty, map_size_empty|]. rewrite E5, E4. 
  assert (filter (λ nk, leafy (base rd c nk) = true) (∅ : gset nodekey) = ∅) as -> by set_solver. by rewrite size_empty.
Qed.

(** effect of one version on the frozen part *)
Definition frozen1 (x : vstate) (s : wset) (c c' : cache) : Prop :=
  (forall nk nd, fz_nodes c' !! nk = Some nd <-> nodes_of x nk nd \/ (fz_nodes c !! nk = Some nd)) /\
  fz_values c' = vset (vs_v x) s ∅ ∪ fz_values c /\
  (forall w nk, (w, nk) ∈ fz_stale c' <-> (w = vs_v x /\ stale_of x nk) \/ (w, nk) ∈ fz_stale c) /\
  (exists st, fz_stats c' = fz_stats c ++ [st] /\ stats_of x st) /\
  fz_roots c' = fz_roots c ++ [ms H [] (a_map (vs_a x))].

Lemma version_gen rd v M0 ver0 r0 a0 c s : BaseOK H rd v M0 ver0 r0 c -> VInv H rd v M0 ver0 r0 a0 c -> tc_values c = ∅ -> Fresh rd v c ->
  let x := VS v M0 ver0 r0 (aset v a0 s) in
  (a_ch (vs_a x) = false -> (0 < v)%N /\ base rd c (r0, []) = Some (node_at H M0 ver0 [])) ->
  vs_ok x /\ exists pfs c1 c', put_set H rd v s c = Ok c1 /\ put_set_with_proof H rd v s c = Ok (pfs, c1) /\ cache_freeze H rd c1 = Ok c' /\
    pfs_ok (a_map a0) s pfs /\ Ready (v + 1) (after x) c' /\ frozen1 x s c c'.
Proof.
  intros BO V Ev F x Hb.
  destruct (put_set_canon rd v M0 ver0 r0 s a0 c BO V) as (pfs & c1 & P1 & P2 & P3 & P4 & P5 & P6).
  assert (Eb : base rd c = base rd c1).
  { unfold rest3 in P4. injection P4 as _ P4 _ _ _ _. unfold base. by rewrite P4. }
  assert (BO1 : BaseOK H rd v M0 ver0 r0 c1) by (by eapply base_ok_ext).
  destruct (freeze_canon rd v M0 ver0 r0 (aset v a0 s) c1 BO1 P3) as (Hok & c' & N & S & st & F1 & F2 & F3 & F4 & F5 & F6 & F7 & F8 & F9 & HN & HS & Hst).
  { rewrite <- Eb. exact Hb. }
  fold x in Hok, HN, HS, Hst. split; [done|]. exists pfs, c1, c'. split; [done|]. split; [done|]. split; [done|]. split; [done|].
  injection P4 as Q1 Q2 Q3 Q4 Q5 Q6.
  split; [split; [done|]; split; [by rewrite F3|done]|].
  split_and!.
  - intros nk nd. rewrite F5, lookup_union_Some_raw, HN, Q2. split; [intros [?|[_ ?]]; [by left|by right]|].
    intros [?|E]; [by left|]. right. split; [|done].
    destruct (N !! nk) as [nd'|] eqn:E2; [|done]. apply HN in E2 as [E2 _]. cbn in E2. destruct nk as [w q]. cbn in E2. subst w.
    specialize (F v q ltac:(lia)). unfold base in F. by rewrite E in F.
  - rewrite F6, P5, Ev, Q3. done.
  - intros w nk. rewrite F7, elem_of_union, Q4. apply or_iff_compat_r. rewrite elem_of_map. split.
    + intros (y & [= -> ->] & Hy). by rewrite <- HS.
    + intros [-> Hy]. exists nk. split; [done|]. by apply HS.
  - exists st. split; [congruence|done].
  - rewrite F9, Q6. done.
Qed.

(** what the frozen part adds to the base *)
Lemma frozen1_base rd x s c c' : frozen1 x s c c' -> Fresh rd (vs_v x) c ->
  forall nk nd, base rd c' nk = Some nd <-> nodes_of x nk nd \/ base rd c nk = Some nd.
Proof.
  intros (FN & _) F nk nd.
  assert (K : forall nd', nodes_of x nk nd' -> base rd c nk = None).
  { intros nd' [E _]. destruct nk as [w q]. cbn in E. subst w. apply F. lia. }
  unfold base in *. destruct (fz_nodes c' !! nk) as [n'|] eqn:E'.
  - apply FN in E' as G. split.
    + intros [= <-]. destruct G as [G|G]; [by left|right]. by rewrite G.
    + intros [G2|G2].
      * assert (fz_nodes c' !! nk = Some nd) by (apply FN; by left). congruence.
      * destruct G as [G|G]; [by rewrite (K _ G) in G2|]. by rewrite G in G2.
  - split.
    + intros G. right. destruct (fz_nodes c !! nk) eqn:E; [|done]. assert (fz_nodes c' !! nk = Some n) by (apply FN; by right). congruence.
    + intros [G|G].
      * assert (fz_nodes c' !! nk = Some nd) by (apply FN; by left). congruence.
      * destruct (fz_nodes c !! nk) eqn:E; [|done]. assert (fz_nodes c' !! nk = Some n) by (apply FN; by right). congruence.
Qed.
Lemma binv_next rd x s c c' : vs_ok x -> frozen1 x s c c' -> Fresh rd (vs_v x) c ->
  (forall q, lv [] q (vs_M0 x) -> (vs_ver0 x q < vs_v x)%N /\ base rd c (vs_ver0 x q, q) = Some (node_at H (vs_M0 x) (vs_ver0 x) q)) ->
  (a_ch (vs_a x) = false -> (vs_r0 x < vs_v x)%N /\ base rd c (vs_r0 x, []) = Some (node_at H (vs_M0 x) (vs_ver0 x) [])) ->
  BInv rd (vs_v x + 1) (after x) c'.
Proof.
  intros (O1 & O2 & O3) Fz F L R. pose proof (frozen1_base rd x s c c' Fz F) as FB.
  split_and!; cbn [after bt_map bt_ver bt_root].
  - intros w q Hw. destruct (base rd c' (w, q)) as [nd|] eqn:E; [|done]. apply FB in E as [[E _]|E]; [cbn in E; lia|].
    rewrite F in E; [done|lia].
  - intros q Hq. destruct (O1 q Hq) as [E|(L0 & E & En)].
    + rewrite E. split; [lia|]. apply FB. left. unfold nodes_of. cbn. split; [done|]. split; [done|]. right. by rewrite E.
    + destruct (L q L0) as [L1 L2]. rewrite <- E. split; [lia|]. apply FB. right. by rewrite En.
  - exact O2.
  - destruct (a_ch (vs_a x)) eqn:Ec; [lia|]. destruct (R eq_refl). lia.
  - destruct (a_ch (vs_a x)) eqn:Ec.
    + apply FB. left. unfold nodes_of. cbn. auto.
    + destruct (R eq_refl) as [_ R2]. destruct (O3 eq_refl) as [-> ->]. apply FB. by right.
Qed.

Lemma version_next rd v b c s : BInv rd v b c -> Ready v b c -> let x := vnext v b s in
  vs_ok x /\ exists pfs c1 c', put_set H rd v s c = Ok c1 /\ put_set_with_proof H rd v s c = Ok (pfs, c1) /\ cache_freeze H rd c1 = Ok c' /\
    pfs_ok (bt_map b) s pfs /\ Ready (v + 1) (after x) c' /\ frozen1 x s c c' /\ BInv rd (v + 1) (after x) c'.
Proof.
  intros B R x. pose proof B as (F & L & R1 & R2 & R3).
  destruct (version_gen rd v _ _ _ (ATree (bt_map b) (bt_ver b) false) c s (binv_base _ _ _ _ B) (ready_vinv _ _ _ _ R)) as (Ok1 & pfs & c1 & c' & G1 & G2 & G3 & G4 & G5 & G6);
    [by apply R|done|intros _; split; [lia|done]|].
  fold (vnext v b s) in Ok1, G5, G6. fold x in Ok1, G5, G6.
  split; [done|]. exists pfs, c1, c'. split_and!; try done. apply (binv_next rd x s c c'); done.
Qed.
Lemma version_first rd c s : (forall nk, rd_node rd nk = None) -> c = cache_new rd 0 -> let x := vfirst s in
  vs_ok x /\ exists pfs c1 c', put_set H rd 0 s c = Ok c1 /\ put_set_with_proof H rd 0 s c = Ok (pfs, c1) /\ cache_freeze H rd c1 = Ok c' /\
    pfs_ok ∅ s pfs /\ Ready 1 (after x) c' /\ frozen1 x s c c' /\ BInv rd 1 (after x) c'.
Proof.
  intros Hrd Ec x.
  assert (Ec2 : c = mkCache (nk_root 0) 0 {[ nk_root 0 := Null ]} ∅ 0 ∅ 0 ∅ ∅ ∅ [] []).
  { rewrite Ec. unfold cache_new. cbn [N.eqb]. by rewrite Hrd. }
  assert (Eb : forall nk, base rd c nk = None) by (intros nk; unfold base; rewrite Ec2; cbn; by rewrite lookup_empty, Hrd).
  assert (NL : forall q, ~ lv [] q ∅) by (intros q L; by apply lv_nil_M in L).
  assert (Fr : Fresh rd 0 c) by (intros w q _; apply Eb).
  destruct (version_gen rd 0 ∅ (fun _ => 0%N) 1 (ATree ∅ (fun _ => 0%N) true) c s) as (Ok1 & pfs & c1 & c' & G1 & G2 & G3 & G4 & G5 & G6).
  - split_and!; [done| |done|done|by right]. intros q L. by apply NL in L.
  - split_and!.
    + split; [rewrite Ec2; cbn [tc_new_leaves tc_nodes]; rewrite map_filter_singleton_False by done; by rewrite map_size_empty|].
      rewrite Ec2. cbn [tc_stale tc_stale_leaves]. 
      match goal with |- _ = size ?X => assert (X = ∅) as -> by set_solver end. by rewrite size_empty.
    + by rewrite Ec2.
    + cbn. split; [by rewrite Ec2|]. right. split; [done|]. split; [right; by rewrite Ec2|]. intros [w q]. rewrite Ec2. cbn.
      rewrite T0_is. split; [by intros ?%elem_of_empty|]. intros [L _]. by apply NL in L.
  - by rewrite Ec2.
  - done.
  - cbn. rewrite aset_ch by done. done.
  - fold (vfirst s) in Ok1, G5, G6. fold x in Ok1, G5, G6.
    split; [done|]. exists pfs, c1, c'. split_and!; try done. apply (binv_next rd x s c c'); [done|done|done| |].
    + intros q L. by apply NL in L.
    + unfold x, vfirst. cbn. rewrite aset_ch by done. done.
Qed.

(** *** a batch *)
Fixpoint bvals (v : version) (sets : list wset) (m : gmap (version * key) (option value)) : gmap (version * key) (option value) :=
  match sets with [] => m | s :: l => bvals (v + 1) l (vset v s ∅ ∪ m) end.
Fixpoint pfss_ok M (sets : list wset) (pfss : list (list sm_proof)) : Prop :=
  match sets, pfss with
  | [], [] => True
  | s :: l, p :: pl => pfs_ok M s p /\ pfss_ok (mset M s) l pl
  | _, _ => False
  end.
Definition frozen (tr : list vstate) (v : version) (sets : list wset) (c c' : cache) : Prop :=
  (forall nk nd, fz_nodes c' !! nk = Some nd <-> (exists x, x ∈ tr /\ nodes_of x nk nd) \/ fz_nodes c !! nk = Some nd) /\
  fz_values c' = bvals v sets (fz_values c) /\
  (forall w nk, (w, nk) ∈ fz_stale c' <-> (exists x, x ∈ tr /\ w = vs_v x /\ stale_of x nk) \/ (w, nk) ∈ fz_stale c) /\
  (exists sts, fz_stats c' = fz_stats c ++ sts /\ Forall2 stats_of tr sts) /\
  fz_roots c' = fz_roots c ++ map (fun x => ms H [] (a_map (vs_a x))) tr.
Lemma frozen_nil v c : frozen [] v [] c c.
Proof.
  split_and!; [|done| |exists []; by rewrite app_nil_r|by rewrite app_nil_r].
  - intros nk nd. split; [by right|]. intros [(x & E & _)|?]; [|done]. by apply elem_of_nil in E.
  - intros w nk. split; [by right|]. intros [(x & E & _)|?]; [|done]. by apply elem_of_nil in E.
Qed.
Lemma frozen_cons x tr v s sets c c1 c' : vs_v x = v -> frozen1 x s c c1 -> frozen tr (v + 1) sets c1 c' -> frozen (x :: tr) v (s :: sets) c c'.
Proof.
  intros Ev (A1 & A2 & A3 & (st & A4 & A4') & A5) (B1 & B2 & B3 & (sts & B4 & B4') & B5). split_and!.
  - intros nk nd. rewrite B1, A1. setoid_rewrite elem_of_cons. split.
    + intros [(y & Hy & N)|[N|N]]; [left; eauto|left; eauto|by right].
    + intros [(y & [->|Hy] & N)|N]; [by right; left|by left; eauto|by right; right].
  - rewrite B2, A2, Ev. done.
  - intros w nk. rewrite B3, A3. setoid_rewrite elem_of_cons. split.
    + intros [(y & Hy & N)|[N|N]]; [left; eauto|left; eauto|by right].
    + intros [(y & [->|Hy] & N)|N]; [by right; left|by left; eauto|by right; right].
  - exists (st :: sts). split; [by rewrite B4, A4, <- app_assoc|]. by constructor.
  - rewrite B5, A5, <- app_assoc. done.
Qed.
Lemma last_cons_bt b x tr : last_bt b (x :: tr) = last_bt (after x) tr.
Proof. unfold last_bt. rewrite last_cons. destruct (last tr); done. Qed.

Lemma put_sets_next rd sets : forall v b c, BInv rd v b c -> Ready v b c ->
  Forall vs_ok (trace v b sets) /\ exists pfss c', put_sets H rd v sets c = Ok c' /\ put_sets_with_proof H rd v sets c = Ok (pfss, c') /\
    pfss_ok (bt_map b) sets pfss /\ frozen (trace v b sets) v sets c c' /\
    BInv rd (v + N.of_nat (length sets)) (last_bt b (trace v b sets)) c'.
Proof.
  induction sets as [|s sets IH]; intros v b c B R.
  - split; [constructor|]. exists [], c. split_and!; [done|done|done|apply frozen_nil|]. cbn. rewrite N.add_0_r. done.
  - destruct (version_next rd v b c s B R) as (O & pfs & c1 & c2 & P1 & P2 & P3 & P4 & P5 & P6 & P7).
    set (x := vnext v b s) in *.
    destruct (IH (v + 1)%N (after x) c2 P7 P5) as (Os & pfss & c' & Q1 & Q2 & Q3 & Q4 & Q5).
    cbn [trace]. fold x. split; [by constructor|]. exists (pfs :: pfss), c'. split.
    { cbn [put_sets]. rewrite P1, bind_Ok, P3, bind_Ok. done. }
    split. { cbn [put_sets_with_proof]. rewrite P2, bind_Ok, P3, bind_Ok, Q2, bind_Ok. done. }
    split. { cbn [pfss_ok]. split; [done|]. unfold x, vnext in Q3. cbn [after bt_map vs_a] in Q3. by rewrite aset_map in Q3. }
    split; [by eapply frozen_cons|]. rewrite last_cons_bt. replace (v + N.of_nat (length (s :: sets)))%N with (v + 1 + N.of_nat (length sets))%N by (cbn [length]; lia).
    done.
Qed.
Definition trace0 (sets : list wset) : list vstate :=
  match sets with [] => [] | s :: l => vfirst s :: trace 1 (after (vfirst s)) l end.
Lemma put_sets_first rd sets : (forall nk, rd_node rd nk = None) -> sets <> [] ->
  let c := cache_new rd 0 in
  Forall vs_ok (trace0 sets) /\ exists pfss c', put_sets H rd 0 sets c = Ok c' /\ put_sets_with_proof H rd 0 sets c = Ok (pfss, c') /\
    pfss_ok ∅ sets pfss /\ frozen (trace0 sets) 0 sets c c' /\
    BInv rd (N.of_nat (length sets)) (last_bt (BT ∅ (fun _ => 0%N) 0) (trace0 sets)) c'.
Proof.
  intros Hrd Hne c. destruct sets as [|s sets]; [done|].
  destruct (version_first rd c s Hrd eq_refl) as (O & pfs & c1 & c2 & P1 & P2 & P3 & P4 & P5 & P6 & P7).
  set (x := vfirst s) in *.
  destruct (put_sets_next rd sets 1%N (after x) c2 P7 P5) as (Os & pfss & c' & Q1 & Q2 & Q3 & Q4 & Q5).
  cbn [trace0]. fold x. split; [by constructor|]. exists (pfs :: pfss), c'. split.
  { cbn [put_sets]. rewrite P1, bind_Ok, P3, bind_Ok. done. }
  split. { cbn [put_sets_with_proof]. rewrite P2, bind_Ok, P3, bind_Ok. change (0 + 1)%N with 1%N. rewrite Q2, bind_Ok. done. }
  split. { cbn [pfss_ok]. split; [done|]. unfold x, vfirst in Q3. cbn [after bt_map vs_a] in Q3. by rewrite aset_map in Q3. }
  split; [by eapply frozen_cons|]. rewrite last_cons_bt. replace (N.of_nat (length (s :: sets)))%N with (1 + N.of_nat (length sets))%N by (cbn [length]; lia).
  done.
Qed.
End ver.
