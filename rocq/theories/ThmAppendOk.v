(** C68: when [append_value_set] (tree.rs:450-480, feature "migration") is accepted and no deletion meets an empty tree, it does
    what it says (beside C62, what can go wrong).  The store is any one built by commits and purges. *)
From Verif Require Import Base Spec SpecOrder SpecRange NodeType ProofDef TreeCache Tree Mock Driver Iterator Exclusion KeyFacts SmtFacts ProofFacts NodeFacts Canon CanonSib ReadFacts PutFacts InsertFacts PutTop VersionFacts ValueFacts StoreFacts DriverFacts DriverFacts2 LeafVersion KeyOrder OrderFacts IterFacts RestoreFacts RestoreRec ThmProof ThmStore ThmRange ThmIter ThmExcl Demo Toy ThmCrash AppendFacts ThmAppend.
From Coq Require Import Lia.
Local Opaque Spec.smt root_inputs ms_in.

Section ok.
Context (H : list byte -> bytes32).

(** *** a store whose latest version can be read and continued *)
Record healthy (s : store) (v : version) (hist : list wset) (ver : list nibble -> version) : Prop := {
  hy_len : N.of_nat (length hist) = (v + 1)%N;
  hy_hist : hist_ok (st_history s) hist;
  hy_root : st_nodes s !! (v, []) = Some (node_at H (H <$> last_contents hist) ver []);
  hy_node : forall q, q <> [] -> lv [] q (H <$> last_contents hist) -> (ver q <= v)%N /\ st_nodes s !! (ver q, q) = Some (node_at H (H <$> last_contents hist) ver q);
  hy_leaf : lver_ok (H <$> last_contents hist) ver hist;
  hy_max : forall nk, is_Some (st_nodes s !! nk) -> (nk.1 <= v)%N;
  hy_stale : forall w nk, (w, nk) ∈ st_stale s -> (w <= v)%N }.
(** a version whose nodes and values are not newer than itself *)
Definition oview (s : store) (w : version) (m : gmap key value) : Prop :=
  exists ver, vview H ver (store_reader s) w m /\ forall p i, 2 <= size (U p m) -> U (p ++ [i]) m <> ∅ -> (ver (p ++ [i]) <= w)%N.
Lemma oview_reads s w m : oview s w m -> reads_as H s w m.
Proof. intros (ver & V & _). apply view_reader. by exists ver. Qed.
Lemma oview_keep s s' w m : oview s w m -> (forall nk, (nk.1 <= w)%N -> st_nodes s' !! nk = st_nodes s !! nk) ->
  (forall u k, (u <= w)%N -> store_value s' u k = store_value s u k) -> oview s' w m.
Proof.
  intros (ver & ([R K] & Hv & Hk) & Le) Hn Hw. exists ver. split; [|done]. split; [split|split].
  - cbn. by rewrite Hn.
  - intros p Hp i Ne. cbn. rewrite U_fm_size in Hp. rewrite Hn; [apply K; [by rewrite U_fm_size|done]|]. apply Le; [done|]. rewrite U_fm in Ne. intros E. apply Ne. rewrite E. apply fmap_empty.
  - intros p i k x Mn E. cbn. rewrite Hw; [by apply Hv|]. apply Le; [done|]. rewrite E. apply map_non_empty_singleton.
  - intros k. cbn. rewrite Hw by done. apply Hk.
Qed.
Lemma last_at (hist : list wset) v : N.of_nat (length hist) = (v + 1)%N -> contents_at hist v = last_contents hist.
Proof. intros L. unfold contents_at, last_contents. by rewrite take_ge by lia. Qed.
Lemma lv_kid p i (M : gmap key vhash) : 2 <= size (U p M) -> U (p ++ [i]) M <> ∅ -> lv [] (p ++ [i]) M.
Proof. intros Mn Ne. split; [apply prefix_nil|]. split; [done|]. right. by rewrite parent_snoc. Qed.
Lemma healthy_oview s v hist ver : healthy s v hist ver -> oview s v (last_contents hist).
Proof.
  intros Y. pose proof (hy_len _ _ _ _ Y) as Len. exists ver. split; [split; [split|split]|].
  - apply (hy_root _ _ _ _ Y).
  - intros p Mn i Ne. apply (hy_node _ _ _ _ Y); [by destruct p|by apply lv_kid].
  - intros p i k x Mn E. cbn. rewrite (store_value_hist s hist) by apply (hy_hist _ _ _ _ Y).
    destruct (hy_leaf _ _ _ _ Y (p ++ [i]) k) as [L1 L2].
    { split; [by destruct p|]. rewrite parent_snoc, U_fm_size. split; [done|]. exists (H x). by rewrite U_fm, E, map_fmap_singleton. }
    rewrite (contents_at_same hist (N.to_nat v)); [|lia|lia|intros j s' [Ej _]%lookup_take_Some; by apply L2]. rewrite N2Nat.id, last_at by done.
    assert (X : U (p ++ [i]) (last_contents hist) !! k = Some x) by (rewrite E; apply lookup_singleton). by apply U_lookup in X as [X _].
  - intros k. cbn. rewrite (store_value_hist s hist) by apply (hy_hist _ _ _ _ Y). by rewrite last_at.
  - intros p i Mn Ne. apply (hy_node _ _ _ _ Y); [by destruct p|]. apply lv_kid; [by rewrite U_fm_size|]. rewrite U_fm. intros E. by apply fmap_empty_inv in E.
Qed.

(** *** the next version *)
Lemma healthy_commit s v hist ver set : healthy s v hist ver ->
  exists s' x ver', step H s (v + 1) (Commit [set]) = Ok (s', x) /\ out_roots x = [smt_root H (apply_set (last_contents hist) set)] /\
    healthy s' (v + 1) (hist ++ [set]) ver' /\ st_overwrite s' = st_overwrite s /\
    (forall nk, (nk.1 <= v)%N -> st_nodes s' !! nk = st_nodes s !! nk).
Proof.
  intros Y. pose proof (hy_len _ _ _ _ Y) as Len. set (m := last_contents hist). set (M := H <$> m).
  set (b := BT M (fun q => if decide (q = []) then v else ver q) v). set (rd := store_reader s). set (c := cache_new rd (v + 1)).
  assert (Ec : c = mkCache (nk_root v) (v + 1) ∅ ∅ 0 ∅ 0 ∅ ∅ ∅ [] []).
  { unfold c, cache_new. assert (v + 1 =? 0 = false)%N as -> by (apply N.eqb_neq; lia). by replace (v + 1 - 1)%N with v by lia. }
  assert (Eb : forall nk, base rd c nk = st_nodes s !! nk) by (intros nk; rewrite Ec; unfold base; cbn; by rewrite lookup_empty).
  assert (Fr : forall w q, (v < w)%N -> st_nodes s !! (w, q) = None).
  { intros w q L. apply eq_None_not_Some. intros X. apply (hy_max _ _ _ _ Y) in X. cbn in X. lia. }
  assert (BI : BInv H rd (v + 1) b c).
  { split_and!; cbn [b bt_map bt_ver bt_root].
    - intros w q L. rewrite Eb. apply Fr. lia.
    - intros q L. rewrite node_at_rekey, Eb. case_decide as D; [subst q; split; [lia|apply (hy_root _ _ _ _ Y)]|]. destruct (hy_node _ _ _ _ Y q D L) as [L1 L2]. split; [lia|done].
    - done.
    - lia.
    - rewrite node_at_rekey, Eb. apply (hy_root _ _ _ _ Y). }
  assert (Rd : Ready (v + 1) b c) by (by rewrite Ec).
  destruct (put_sets_next H rd [set] (v + 1) b c BI Rd) as (Os & pfss & c' & P1 & _ & _ & P4 & P5). cbn [trace] in *. set (x := vnext H (v + 1) b set) in *.
  destruct (frozen_batch H _ _ _ _ _ P4) as [BO Rt]; [by rewrite Ec..|]. set (bt := (cache_into c').2) in *.
  assert (Mx : a_map (vs_a x) = H <$> apply_set m set) by (unfold x, vnext; cbn [vs_a]; rewrite aset_map; apply mset_fmap).
  assert (Lc : last_contents (hist ++ [set]) = apply_set m set) by (unfold last_contents, apply_sets; by rewrite fold_left_app).
  assert (Bn : forall nk nd, tb_nodes bt !! nk = Some nd <-> nodes_of H x nk nd).
  { intros nk nd. rewrite (bo_nodes _ _ _ _ _ BO). split; [intros (y & Hy & N); apply elem_of_list_singleton in Hy as ->; done|]. intros N. exists x. split; [by left|done]. }
  assert (Bv : forall nk, is_Some (tb_nodes bt !! nk) -> nk.1 = (v + 1)%N) by (intros nk [nd E]; apply Bn in E as [E _]; exact E).
  assert (Bs : forall w nk, (w, nk) ∈ tb_stale bt -> w = (v + 1)%N).
  { intros w nk E. apply (bo_stale _ _ _ _ _ BO) in E as (y & Hy & -> & _). apply elem_of_list_singleton in Hy as ->. done. }
  destruct (write_batch_values (st_history s) hist [set] (hy_hist _ _ _ _ Y)) as (h' & W & Hh). rewrite Len in W.
  assert (Wr : write_tree_update_batch s bt = Ok (mkStore (tb_nodes bt ∪ st_nodes s) (tb_stale bt ∪ st_stale s) h' (st_overwrite s))).
  { unfold write_tree_update_batch, write_node_batch. rewrite (bo_values _ _ _ _ _ BO).
    rewrite (bool_decide_eq_true_2 (dom (tb_nodes bt) ∩ dom (st_nodes s) = ∅)).
    2:{ apply set_eq. intros [w q]. rewrite elem_of_intersection, !elem_of_dom. split; [|set_solver]. intros [E1 E2]. apply Bv in E1. cbn in E1. subst w. rewrite Fr in E2 by lia. by destruct E2. }
    rewrite orb_true_r. cbn [assert_]. rewrite bind_Ok, W, !bind_Ok. cbn [st_stale st_nodes st_history st_overwrite].
    rewrite bool_decide_eq_true_2; [cbn [ensure_]; by rewrite bind_Ok|]. apply set_eq. intros [w nk]. rewrite elem_of_intersection. split; [|set_solver].
    intros [E1 E2]. apply Bs in E1. apply (hy_stale _ _ _ _ Y) in E2. lia. }
  set (s' := mkStore (tb_nodes bt ∪ st_nodes s) (tb_stale bt ∪ st_stale s) h' (st_overwrite s)) in *.
  assert (Old : forall nk, (nk.1 <= v)%N -> st_nodes s' !! nk = st_nodes s !! nk).
  { intros nk L. cbn [s' st_nodes]. apply lookup_union_r. apply eq_None_not_Some. intros E. apply Bv in E. lia. }
  exists s', (OutCommit (cache_into c').1 bt), (a_ver (vs_a x)).
  split. { cbn [step]. unfold put_value_sets. fold rd c. assert (Ei : cache_into c' = ((cache_into c').1, bt)) by (unfold bt; by destruct (cache_into c')). rewrite P1, bind_Ok, Ei, bind_Ok, Wr, bind_Ok. reflexivity. }
  split. { cbn [out_roots]. rewrite Rt. cbn [map]. by rewrite Mx, ms_nil. }
  split; [|split; [done|exact Old]].
  assert (Live : forall q, lv [] q (H <$> apply_set m set) -> (a_ver (vs_a x) q <= v + 1)%N /\ st_nodes s' !! (a_ver (vs_a x) q, q) = Some (node_at H (H <$> apply_set m set) (a_ver (vs_a x)) q)).
  { intros q L. destruct P5 as (_ & P5 & _). cbn [last_bt last after bt_map bt_ver] in P5. rewrite <- Mx in L |- *. destruct (P5 q L) as [Lq Eq]. cbn [length] in Lq. split; [lia|].
    rewrite <- Eq. unfold base. cbn [s' st_nodes]. rewrite lookup_union. cbn [bt cache_into snd tb_nodes]. cbn [rd store_reader rd_node]. destruct (fz_nodes c' !! (a_ver (vs_a x) q, q)); [by destruct (st_nodes s !! _)|]. by destruct (st_nodes s !! _). }
  split; rewrite ?Lc.
  - rewrite app_length. cbn [length]. lia.
  - exact Hh.
  - cbn [s' st_nodes]. apply lookup_union_Some_l. apply Bn. split; [done|]. rewrite Mx. split; [done|by left].
  - intros q _ L. by apply Live.
  - pose proof (lver_step H M (fun q => if decide (q = []) then v else ver q) false hist set) as G. rewrite Len in G. cbn zeta in G.
    fold (bt_map b) in G. rewrite <- Mx. apply G. intros q k O. pose proof O as (Nq & _). destruct (hy_leaf _ _ _ _ Y q k O) as [L1 L2]. rewrite decide_False by done. done.
  - intros nk [nd E]. cbn [s' st_nodes] in E. apply lookup_union_Some_raw in E as [E|[_ E]].
    + assert (nk.1 = (v + 1)%N) by (apply Bv; by eexists). lia.
    + assert (nk.1 <= v)%N by (apply (hy_max _ _ _ _ Y); by eexists). lia.
  - intros w nk. cbn [s' st_stale]. rewrite elem_of_union. intros [E|E]; [apply Bs in E; lia|]. apply (hy_stale _ _ _ _ Y) in E. lia.
Qed.

(** *** the store of a run *)
Lemma aset_ver v (s : wset) : forall a q, a_ver (aset H v a s) q = v \/ a_ver (aset H v a s) q = a_ver a q.
Proof.
  induction s as [|w s IH]; intros a q; [by right|]. unfold aset in *. cbn [fold_left]. destruct (IH (astep v a (w.1, H <$> w.2)) q) as [E|E]; [by left|]. rewrite E.
  unfold astep. case_decide; [by right|]. cbn [a_ver]. unfold upd. case_decide; [by left|]. case_decide; [by right|by left].
Qed.
Lemma trace_ver_le sets : forall v b i x, (forall q, (bt_ver b q <= v)%N) -> trace H v b sets !! i = Some x -> forall q, (a_ver (vs_a x) q <= v + N.of_nat i)%N.
Proof.
  induction sets as [|s sets IH]; intros v b i x L E q; [done|]. cbn [trace] in E.
  assert (L1 : forall q, (a_ver (aset H v (ATree (bt_map b) (bt_ver b) false) s) q <= v)%N).
  { intros q'. destruct (aset_ver v s (ATree (bt_map b) (bt_ver b) false) q') as [->| ->]; [done|]. apply L. }
  destruct i as [|i]; cbn [lookup list_lookup] in E; [injection E as <-; cbn [vnext vs_a]; specialize (L1 q); lia|].
  assert (L2 : forall q, (bt_ver (after (vnext H v b s)) q <= v + 1)%N) by (intros q'; cbn [after bt_ver vnext vs_a]; specialize (L1 q'); lia).
  pose proof (IH _ _ _ _ L2 E q). lia.
Qed.
Lemma trace0_ver_le sets i x : trace0 H sets !! i = Some x -> forall q, (a_ver (vs_a x) q <= N.of_nat i)%N.
Proof.
  destruct sets as [|s sets]; [done|]. cbn [trace0].
  assert (L1 : forall q, a_ver (aset H 0 (ATree ∅ (fun _ => 0%N) true) s) q = 0%N) by (intros q'; by destruct (aset_ver 0 s (ATree ∅ (fun _ => 0%N) true) q') as [->| ->]).
  destruct i as [|i]; cbn [lookup list_lookup]; intros E q; [injection E as <-; cbn [vfirst vs_a]; by rewrite L1|].
  assert (L2 : forall q, (bt_ver (after (vfirst H s)) q <= 1)%N) by (intros q'; cbn [after bt_ver vfirst vs_a]; rewrite L1; lia).
  pose proof (trace_ver_le _ _ _ _ _ L2 E q). lia.
Qed.
Lemma run_state ops i x : (xrun H tb0 ops).1 !! i = Some x ->
  (forall q, q <> [] -> (a_ver (vs_a x) q <= N.of_nat i)%N) /\ lver_ok (a_map (vs_a x)) (a_ver (vs_a x)) (take (S i) (history ops)).
Proof.
  intros E. destruct (xrun_sim H ops) as [F _]. destruct (Forall2_lookup_l _ _ _ _ _ F E) as (y & Ey & _ & E2 & E3). split.
  - intros q Nq. rewrite E3 by done. by eapply trace0_ver_le.
  - intros q k O. rewrite E2 in O. pose proof O as (Nq & _). rewrite E3 by done. by apply (trace0_lver H _ _ _ Ey).
Qed.
Lemma run_oview ops st xs w : run H ops = Ok (st, xs) -> readable ops w -> oview st w (contents_at (history ops) w).
Proof.
  intros R Rw. pose proof Rw as [L1 L2]. pose proof R as R'. apply run_inv in R' as [_ S]. destruct (read_ok H _ _ _ _ _ w S L1 L2) as (x & E & Vx & Mx & St).
  destruct (run_state ops _ _ E) as [Le _]. rewrite N2Nat.id in Le. exists (a_ver (vs_a x)). split; [split; [done|split]|].
  - intros p n k y Mn EU. rewrite (value_ok H _ _ _ _ _ _ _ S).
    rewrite (run_leaf_value H ops x (N.to_nat w) k (p ++ [n]) (H y)); [..|done| | |].
    + rewrite N2Nat.id. assert (X : U (p ++ [n]) (contents_at (history ops) w) !! k = Some y) by (rewrite EU; apply lookup_singleton). by apply U_lookup in X as [X _].
    + by destruct p.
    + rewrite parent_snoc, Mx, U_fm_size. done.
    + rewrite Mx, U_fm, EU. apply map_fmap_singleton.
  - intros k. by rewrite (value_ok H _ _ _ _ _ _ _ S).
  - intros p n _ _. apply Le. by destruct p.
Qed.
Lemma run_healthy ops st xs n : run H ops = Ok (st, xs) -> num_versions ops = (n + 1)%N -> exists x, (xrun H tb0 ops).1 !! N.to_nat n = Some x /\ vs_v x = n /\
  a_map (vs_a x) = H <$> last_contents (history ops) /\ healthy st n (history ops) (a_ver (vs_a x)).
Proof.
  intros R En. pose proof R as R'. apply run_inv in R' as [_ S].
  assert (Rn : readable ops n).
  { assert (Nz : num_versions ops <> 0%N) by (rewrite En; lia). pose proof (latest_readable ops Nz) as Lr. rewrite En in Lr. by replace (n + 1 - 1)%N with n in Lr by lia. }
  destruct Rn as [L1 L2]. destruct (read_ok H _ _ _ _ _ n S L1 L2) as (x & E & Vx & Mx & St).
  assert (Len : N.of_nat (length (history ops)) = (n + 1)%N) by exact En. rewrite last_at in Mx, St by done.
  destruct (run_state ops _ _ E) as [Le Lf]. rewrite N2Nat.id in Le. exists x. split; [done|]. split; [done|]. split; [done|]. split.
  - exact Len.
  - apply (si_hist _ _ _ _ _ _ S).
  - apply St.
  - intros q Nq L. split; [by apply Le|]. destruct (parent_eq q Nq) as (i & Eq). destruct L as (_ & Ne & [->|Mn]); [done|]. rewrite Eq. destruct St as [_ K]. apply K; [done|]. by rewrite <- Eq.
  - rewrite <- Mx. rewrite take_ge in Lf by lia. exact Lf.
  - intros nk [nd Ek]. apply (si_nodes _ _ _ _ _ _ S) in Ek as [(y & Hy & Ny & _) _]. pose proof (tr_lt H _ y (si_trok _ _ _ _ _ _ S) Hy) as Lt. rewrite (si_len _ _ _ _ _ _ S), Len in Lt. rewrite Ny. lia.
  - intros w nk Ek. apply (si_stale _ _ _ _ _ _ S) in Ek as (y & Hy & -> & _). pose proof (tr_lt H _ y (si_trok _ _ _ _ _ _ S) Hy) as Lt. rewrite (si_len _ _ _ _ _ _ S), Len in Lt. lia.
Qed.

(** *** the values of the appended set *)
Lemma last_write_app (a b : wset) k : last_write (a ++ b) k = match last_write b k with Some x => Some x | None => last_write a k end.
Proof.
  induction b as [|w b IH] using rev_ind; [by rewrite app_nil_r|]. rewrite app_assoc, !last_write_snoc, IH. by case_decide.
Qed.
Lemma last_write_in (s : wset) k x : last_write s k = Some x -> (k, x) ∈ s.
Proof.
  induction s as [|w s IH] using rev_ind; [done|]. rewrite last_write_snoc, elem_of_app. case_decide as D; [|by left; apply IH].
  intros [= <-]. right. rewrite <- D. destruct w. by left.
Qed.
Lemma put_over h n k x l0 t : (forall a, a ∈ l0 -> (a.1 < n)%N) -> default [] (h !! k) = l0 ++ t -> t = [] \/ (exists y, t = [(n, y)]) ->
  exists h', put_value_hist h n k x = Ok h' /\ default [] (h' !! k) = l0 ++ [(n, x)] /\ forall k', k' <> k -> h' !! k' = h !! k'.
Proof.
  intros A E [->|[y ->]].
  - rewrite app_nil_r in E. destruct (put_value_hist_ok h n k x) as (h' & P1 & P2 & P3); [by rewrite E|]. rewrite E in P2. by exists h'.
  - unfold put_value_hist. destruct (h !! k) as [l|] eqn:El; cbn [default] in E; [|by destruct l0]. cbn in E. subst l. rewrite rev_app_distr. cbn [rev app].
    rewrite N.compare_refl, rev_involutive. eexists. split; [done|]. split; [by rewrite lookup_insert|]. intros k' Hk. by rewrite lookup_insert_ne.
Qed.
Lemma write_over n (h0 : key -> list (version * option value)) : (forall k a, a ∈ h0 k -> (a.1 < n)%N) -> forall l h (t : key -> list (version * option value)),
  (forall e, e ∈ l -> e.1.1 = n) -> NoDup (l.*1) -> (forall k, default [] (h !! k) = h0 k ++ t k /\ (t k = [] \/ exists y, t k = [(n, y)])) ->
  exists h', write_values h l = Ok h' /\ forall k, (forall x, ((n, k), x) ∈ l -> default [] (h' !! k) = h0 k ++ [(n, x)]) /\ ((forall x, ((n, k), x) ∉ l) -> default [] (h' !! k) = h0 k ++ t k).
Proof.
  intros A. induction l as [|[[w k] x] l IH]; intros h t En Nd Hh.
  - exists h. split; [done|]. intros k. split; [by intros x ?%elem_of_nil|]. intros _. apply Hh.
  - assert (w = n) as -> by (apply (En ((w, k), x)); by left). cbn [fmap list_fmap fst] in Nd. apply NoDup_cons in Nd as [Nk Nd].
    destruct (put_over h n k x (h0 k) (t k) (A k)) as (h1 & P1 & P2 & P3); [apply Hh..|].
    destruct (IH h1 (fun k' => if decide (k' = k) then [(n, x)] else t k')) as (h' & Q1 & Q2); [intros e He; apply En; by right|done| |].
    { intros k'. case_decide as D; [subst k'; split; [done|right; by exists x]|]. rewrite P3 by done. apply Hh. }
    exists h'. split; [cbn [write_values]; by rewrite P1, bind_Ok|]. intros k'. destruct (Q2 k') as [Q3 Q4]. split.
    + intros x' [[= -> ->]|Hx]%elem_of_cons; [|by apply Q3]. rewrite decide_True in Q4 by done. apply Q4. intros y Hy. apply Nk. apply elem_of_list_fmap. by exists ((n, k), y).
    + intros Hx. rewrite decide_False in Q4; [apply Q4; intros y Hy; apply (Hx y); by right|]. intros ->. apply (Hx x). by left.
Qed.
Lemma hist_over h hist (sn set : wset) : hist_ok h (hist ++ [sn]) ->
  exists h', write_values h (sorted_values (vset (N.of_nat (length hist)) set ∅)) = Ok h' /\ hist_ok h' (hist ++ [sn ++ set]).
Proof.
  intros Hh. set (n := N.of_nat (length hist)). set (l := sorted_values (vset n set ∅)).
  assert (El : forall w k x, ((w, k), x) ∈ l <-> w = n /\ last_write set k = Some x).
  { intros w k x. unfold l. rewrite elem_of_sorted_values, vset_lookup, lookup_empty. case_decide as D; [|naive_solver]. destruct (last_write set k); naive_solver. }
  assert (Eh : forall a k, hl 0 (hist ++ [a]) k = hl 0 hist k ++ match last_write a k with Some x => [(n, x)] | None => [] end).
  { intros a k. rewrite hl_app. cbn [hl]. rewrite N.add_0_l. by destruct (last_write a k). }
  destruct (write_over n (hl 0 hist) (fun k a Ha => proj2 (hl_lt _ _ _ _ _ (eq_rect _ (fun a => a ∈ hl 0 hist k) Ha _ (surjective_pairing a)))) l h (fun k => match last_write sn k with Some x => [(n, x)] | None => [] end)) as (h' & W & Hw).
  - intros [[w k] x] E. by apply El in E as [-> _].
  - unfold l. rewrite sorted_values_perm. apply NoDup_fst_map_to_list.
  - intros k. rewrite (Hh k), Eh. split; [done|]. destruct (last_write sn k) as [y|]; [right; by exists y|by left].
  - exists h'. split; [exact W|]. intros k. rewrite Eh, last_write_app. destruct (Hw k) as [H1 H2]. destruct (last_write set k) as [x|] eqn:E.
    + apply H1. by apply El.
    + apply H2. intros x Hx. apply El in Hx as [_ Hx]. congruence.
Qed.

(** *** the append *)
Lemma leaf_one M ver q k h : node_at H M ver q = Leaf (LeafNode k h) -> U q M = {[ k := h ]}.
Proof.
  intros E. destruct (size_cases (U q M)) as [Z|[(k' & h' & Z)|Z]].
  - rewrite node_at_null in E by done. done.
  - rewrite (node_at_leaf H _ _ _ k' h') in E by done. by injection E as -> ->.
  - rewrite node_at_internal in E by done. done.
Qed.
Definition over (hist : list wset) (set : wset) : list wset := take (length hist - 1) hist ++ [default [] (last hist) ++ set].
Lemma over_snoc (hist : list wset) sn set : over (hist ++ [sn]) set = hist ++ [sn ++ set].
Proof. unfold over. rewrite app_length, last_snoc. cbn [length default]. replace (length hist + 1 - 1) with (length hist) by lia. by rewrite take_app. Qed.

Lemma healthy_append s n hist ver rd set :
  healthy s n hist ver -> (forall nk, rd_node rd nk = st_nodes s !! nk) -> last_contents hist <> ∅ ->
  (forall q, lv [] q (H <$> last_contents hist) -> (n, (if decide (q = []) then n else ver q, q)) ∉ st_stale s) ->
  (exists nk lf, rd_rightmost rd = Some (nk, lf) /\ nk.1 = n) -> safe H (H <$> last_contents hist) set ->
  exists b s' ver', append_value_set H rd set n = Ok (smt_root H (apply_set (last_contents hist) set), b) /\
    write_tree_update_batch (overwritable s) b = Ok s' /\ healthy s' n (over hist set) ver' /\ last_contents (over hist set) = apply_set (last_contents hist) set /\
    (forall nk, (nk.1 < n)%N -> st_nodes s' !! nk = st_nodes s !! nk) /\ (forall u k, (u < n)%N -> store_value s' u k = store_value s u k).
Proof.
  intros Y Rn Ne St Rm Sf. pose proof (hy_len _ _ _ _ Y) as Len. destruct hist as [|sn hist _] using rev_ind; [cbn in Len; lia|].
  rewrite over_snoc. set (m := last_contents (hist ++ [sn])) in *. set (M := H <$> m) in *. set (ver0 := fun q : list nibble => if decide (q = []) then n else ver q).
  assert (Ln : N.of_nat (length hist) = n) by (rewrite app_length in Len; cbn [length] in Len; lia).
  assert (NeM : M <> ∅) by (intros E; by apply fmap_empty_inv in E).
  assert (Hl : forall q, lv [] q M -> rd_node rd (ver0 q, q) = Some (node_at H M ver0 q)).
  { intros q L. rewrite Rn. unfold ver0. rewrite node_at_rekey. case_decide as D; [subst q; apply (hy_root _ _ _ _ Y)|by apply (hy_node _ _ _ _ Y)]. }
  destruct (append_result H rd n M ver0 NeM eq_refl set Hl Sf Rm) as (b & B1 & B2 & B3 & B4 & B5 & B6 & B7 & B8).
  set (g := gset_fold H n (GTree M ver0 (fun _ => false)) set) in *.
  assert (Gm : g_map g = H <$> apply_set m set) by (unfold g; rewrite gset_map; cbn [g_map]; apply mset_fmap). rewrite Gm in *.
  destruct (hist_over (st_history s) hist sn set (hy_hist _ _ _ _ Y)) as (h' & W & Hh). rewrite Ln in W.
  set (s' := mkStore (tb_nodes b ∪ st_nodes s) (tb_stale b ∪ st_stale s) h' true).
  assert (Lc : last_contents (hist ++ [sn ++ set]) = apply_set m set).
  { unfold m, last_contents, apply_sets. rewrite !fold_left_app. cbn [fold_left]. unfold apply_set. by rewrite fold_left_app. }
  exists b, s', (g_ver g). split; [by rewrite B1, ms_nil|]. split.
  { unfold write_tree_update_batch, write_node_batch, overwritable. cbn [st_overwrite orb assert_ st_history st_nodes st_stale]. rewrite B2, bind_Ok, W, !bind_Ok. cbn [st_stale st_nodes st_history st_overwrite].
    rewrite bool_decide_eq_true_2; [cbn [ensure_]; by rewrite bind_Ok|]. apply set_eq. intros [w [u q]]. rewrite elem_of_intersection. split; [|set_solver].
    intros [E1 E2]. apply B4 in E1 as [-> E1]. apply T0_is in E1 as [L <-]. by apply St in E2. }
  assert (Ov : forall nk, overlay rd b nk = st_nodes s' !! nk).
  { intros nk. unfold overlay. cbn [s' st_nodes]. rewrite lookup_union, Rn. destruct (tb_nodes b !! nk), (st_nodes s !! nk); done. }
  split; [|split; [exact Lc|split]].
  - split; rewrite ?Lc.
    + rewrite app_length in *. exact Len.
    + exact Hh.
    + rewrite <- Ov. exact B5.
    + intros q Nq L. split; [|rewrite <- Ov; by apply B6]. destruct (B8 q L) as [(_ & ->)|(_ & L0 & <- & _)]; [done|]. unfold ver0. rewrite decide_False by done. by apply (hy_node _ _ _ _ Y).
    + intros q k O. pose proof O as (Nq & Mn & h & Uq). rewrite app_length in *. cbn [length] in *.
      assert (L : lv [] q (H <$> apply_set m set)). { split; [apply prefix_nil|]. split; [rewrite Uq; apply single_ne|by right]. }
      destruct (B8 q L) as [(_ & ->)|(G1 & L0 & G2 & G3)].
      { split; [lia|]. intros j s0 Ej Lj. apply lookup_lt_Some in Ej. rewrite app_length in Ej. cbn in Ej. lia. }
      rewrite (node_at_leaf H (H <$> apply_set m set) (g_ver g) q k h) in G3 by done. apply leaf_one in G3.
      assert (O0 : one q M k). { split; [done|]. destruct L0 as (_ & _ & [?|L0]); [done|]. split; [done|by exists h]. }
      destruct (hy_leaf _ _ _ _ Y q k O0) as [L1 L2]. rewrite <- G2. unfold ver0. rewrite decide_False by done. rewrite app_length in L1. split; [exact L1|].
      assert (Ws : last_write set k = None).
      { destruct (last_write set k) as [[x|]|] eqn:Ew; [..|done]; exfalso.
        - apply last_write_in in Ew. apply one_in in O as [_ Pq]. assert (g_new g q = true) by (by eapply gset_new). congruence.
        - apply one_in in O as [[y Ey] _]. rewrite lookup_fmap, apply_set_lookup, Ew in Ey. done. }
      intros j s0 Ej Lj. apply lookup_app_Some in Ej as [Ej|[Lh Ej]].
      * apply (L2 j); [|done]. by apply lookup_app_l_Some.
      * apply list_lookup_singleton_Some in Ej as [Ej <-]. rewrite last_write_app, Ws. apply (L2 j); [|done]. rewrite lookup_app_r by done. by rewrite Ej.
    + intros nk [nd E]. cbn [s' st_nodes] in E. apply lookup_union_Some_raw in E as [E|[_ E]].
      * assert (nk.1 = n) as -> by (apply B3; by eexists). done.
      * apply (hy_max _ _ _ _ Y). by eexists.
    + intros w nk. cbn [s' st_stale]. rewrite elem_of_union. intros [E|E]; [apply B4 in E as [-> _]; done|]. by apply (hy_stale _ _ _ _ Y) in E.
  - intros nk L. cbn [s' st_nodes]. apply lookup_union_r. apply eq_None_not_Some. intros E. apply B3 in E. lia.
  - intros u k L. rewrite (store_value_hist s' (hist ++ [sn ++ set])) by exact Hh. rewrite (store_value_hist s (hist ++ [sn])) by apply (hy_hist _ _ _ _ Y).
    unfold contents_at. by rewrite !take_app_le by lia.
Qed.

(** *** further commits *)
Lemma healthy_commits sets : forall s v hist ver, healthy s v hist ver -> exists s' outs ver',
  run_from H s (v + 1) (map (fun set => Commit [set]) sets) = Ok (s', outs) /\ healthy s' (v + N.of_nat (length sets)) (hist ++ sets) ver' /\
  map out_roots outs = map (fun i => [smt_root H (contents_at (hist ++ sets) (v + 1 + N.of_nat i))]) (seq 0 (length sets)) /\
  (forall w m, (w <= v)%N -> oview s w m -> oview s' w m) /\
  (forall w, (v <= w <= v + N.of_nat (length sets))%N -> oview s' w (contents_at (hist ++ sets) w)).
Proof.
  induction sets as [|set sets IH]; intros s v hist ver Y.
  - exists s, [], ver. cbn [map run_from length seq]. rewrite N.add_0_r, app_nil_r. split_and!; [done..|]. intros w L. assert (w = v) as -> by lia.
    rewrite last_at by apply (hy_len _ _ _ _ Y). by eapply healthy_oview.
  - destruct (healthy_commit s v hist ver set Y) as (s1 & x & ver1 & S1 & S2 & Y1 & _ & S4).
    destruct (IH s1 (v + 1)%N (hist ++ [set]) ver1 Y1) as (s2 & outs & ver2 & Q1 & Q2 & Q3 & Q4 & Q5). pose proof (hy_len _ _ _ _ Y) as Len.
    assert (Ea : (hist ++ [set]) ++ sets = hist ++ set :: sets) by (by rewrite <- app_assoc). rewrite Ea in *.
    assert (Keep : forall w m, (w <= v)%N -> oview s w m -> oview s1 w m).
    { intros w m L O. apply (oview_keep s); [done|intros nk Ln; apply S4; lia|]. intros u k Lu. rewrite (store_value_hist s1 (hist ++ [set])) by apply (hy_hist _ _ _ _ Y1).
      rewrite (store_value_hist s hist) by apply (hy_hist _ _ _ _ Y). unfold contents_at. by rewrite take_app_le by lia. }
    exists s2, (x :: outs), ver2. split. { cbn [map run_from op_sets length]. rewrite S1, bind_Ok. replace (v + 1 + N.of_nat 1)%N with (v + 1 + 1)%N by lia. by rewrite Q1, bind_Ok. }
    cbn [length]. replace (v + N.of_nat (S (length sets)))%N with (v + 1 + N.of_nat (length sets))%N by lia. split; [exact Q2|]. split.
    { cbn [map seq]. f_equal.
      - rewrite S2. do 2 f_equal. unfold contents_at. rewrite N.add_0_r. rewrite firstn_app, take_ge by lia. replace (S (N.to_nat (v + 1)) - length hist) with 1 by lia. cbn [take]. unfold last_contents, apply_sets. by rewrite fold_left_app.
      - rewrite Q3, <- seq_shift, map_map. apply map_ext. intros i. by replace (v + 1 + 1 + N.of_nat i)%N with (v + 1 + N.of_nat (S i))%N by lia. }
    split. { intros w m L O. apply Q4; [lia|by apply Keep]. }
    intros w L. destruct (decide (w = v)) as [->|Nw]; [|apply Q5; lia]. apply Q4; [lia|]. apply Keep; [done|].
    assert (contents_at (hist ++ set :: sets) v = last_contents hist) as -> by (unfold contents_at, last_contents; rewrite take_app_alt by lia; done). by eapply healthy_oview.
Qed.

Lemma keeps_safe set : forall m, (forall i k, set !! i = Some (k, None) -> apply_set m (take i set) <> ∅) -> safe H (H <$> m) set.
Proof.
  induction set as [|w set IH]; intros m K; [done|]. cbn [safe]. split.
  - intros [E1 E2]. destruct w as [k o]. cbn in E2. subst o. apply fmap_empty_inv in E1. by apply (K 0 k).
  - assert (apply_vh (H <$> m) w.1 (H <$> w.2) = H <$> apply_set m [w]) as ->.
    { unfold apply_set. cbn [fold_left]. unfold apply_write. destruct w as [k [x|]]; cbn; [by rewrite fmap_insert|by rewrite fmap_delete]. }
    apply IH. intros i k E. specialize (K (S i) k E). unfold apply_set in *. cbn [take fold_left] in *. exact K.
Qed.
End ok.

Lemma leaf_live (M : gmap key vhash) k h : M !! k = Some h -> exists q, lv [] q M /\ U q M = {[ k := h ]}.
Proof.
  intros Ek. set (P j := size (U (take j (key_nibbles k)) M) <= 1).
  assert (P64 : P 64).
  { unfold P. destruct (decide (size (U (take 64 (key_nibbles k)) M) <= 1)) as [|N]; [done|]. pose proof (U_many_len (take 64 (key_nibbles k)) M ltac:(lia)) as L. rewrite take_length, key_nibbles_length in L. lia. }
  destruct (least_nat P 64 P64) as (j & Lj & Pj & F).
  assert (Uk : U (take j (key_nibbles k)) M !! k = Some h) by (apply U_lookup; split; [done|apply take_pre]).
  assert (Eu : U (take j (key_nibbles k)) M = {[ k := h ]}).
  { destruct (size_cases (U (take j (key_nibbles k)) M)) as [E|[(x & y & E)|E]]; [by rewrite E in Uk| |unfold P in Pj; lia]. rewrite E in Uk. by apply lookup_singleton_Some in Uk as [-> ->]. }
  exists (take j (key_nibbles k)). split; [|done]. split; [apply prefix_nil|]. split; [rewrite Eu; apply single_ne|].
  destruct j as [|j]; [by left|right]. destruct (lookup_lt_is_Some_2 (key_nibbles k) j) as [x Ex]; [rewrite key_nibbles_length; lia|].
  rewrite (take_S_r _ _ _ Ex), parent_snoc. specialize (F j ltac:(lia)). unfold P in F. lia.
Qed.
Lemma contents_written (hist : list wset) w k x : contents_at hist w !! k = Some x -> exists i s, hist !! i = Some s /\ i <= N.to_nat w /\ (k, Some x) ∈ s.
Proof.
  unfold contents_at, last_contents. intros E.
  assert (G : forall (l : list wset), apply_sets ∅ l !! k = Some x -> exists i s, l !! i = Some s /\ (k, Some x) ∈ s).
  { clear. induction l as [|s l IH] using rev_ind; [unfold apply_sets; cbn [fold_left]; by rewrite lookup_empty|]. unfold apply_sets in *. rewrite fold_left_app. cbn [fold_left]. rewrite apply_set_lookup.
    destruct (last_write s k) as [o|] eqn:Ew.
    - intros ->. exists (length l), s. split; [by rewrite list_lookup_middle|]. by apply last_write_in.
    - intros (i & s' & Ei & Hs)%IH. exists i, s'. split; [by apply lookup_app_l_Some|done]. }
  apply G in E as (i & s & Ei & Hs). apply lookup_take_Some in Ei as [Ei Li]. exists i, s. split; [done|]. split; [lia|done].
Qed.

(** *** the specification: a reader of the store *)
(** [rd] finds the nodes of [s], and its rightmost leaf is some leaf node of [s] whose key no other leaf node's key exceeds
    (reader.rs:44-48: which one, when several nodes hold the same key, is left open). *)
Definition reads_store (rd : reader) (s : store) : Prop := (forall nk, rd_node rd nk = st_nodes s !! nk) /\
  match rd_rightmost rd with
  | None => forall nk lf, st_nodes s !! nk <> Some (Leaf lf)
  | Some (nk, lf) => st_nodes s !! nk = Some (Leaf lf) /\ forall nk' lf', st_nodes s !! nk' = Some (Leaf lf') -> key_le (ln_key lf') (ln_key lf)
  end.
Lemma store_reader_reads s : reads_store (store_reader s) s.
Proof. split; [done|]. apply store_rightmost_ok. Qed.
(** No deletion in [set] meets an empty tree when [set] is applied, in order, to [m]. *)
Definition no_empty_delete (m : gmap key value) (set : value_set) : Prop :=
  forall i k, set !! i = Some (k, None) -> apply_set m (take i set) <> ∅.
(** What is committed once [set] has been added to the latest of the versions [hist]. *)
Definition with_appended (hist : list value_set) (set : value_set) : list value_set := take (length hist - 1) hist ++ [default [] (last hist) ++ set].

(** An accepted append returns the root of the latest contents with the set applied; its batch can be written; then the latest
    version reads as those contents, every older readable version reads as before, and further commits give the right roots
    and leave every version readable. *)
Theorem C68_append H ops st xs n rd set : run H ops = Ok (st, xs) -> num_versions ops = (n + 1)%N ->
  reads_store rd st -> (exists nk lf, rd_rightmost rd = Some (nk, lf) /\ nk_version nk = n) ->
  no_empty_delete (contents_at (history ops) n) set ->
  exists b s', append_value_set H rd set n = Ok (smt_root H (apply_set (contents_at (history ops) n) set), b) /\
    write_tree_update_batch (overwritable st) b = Ok s' /\
    reads_as H s' n (apply_set (contents_at (history ops) n) set) /\
    (forall w, readable ops w -> (w < n)%N -> reads_as H s' w (contents_at (history ops) w)) /\
    forall sets, let hist := with_appended (history ops) set ++ sets in exists s2 outs,
      run_from H s' (n + 1) (map (fun c => Commit [c]) sets) = Ok (s2, outs) /\
      map out_roots outs = map (fun i => [smt_root H (contents_at hist (n + 1 + N.of_nat i))]) (seq 0 (length sets)) /\
      (forall w, readable ops w -> reads_as H s2 w (contents_at hist w)) /\
      (forall w, (n <= w <= n + N.of_nat (length sets))%N -> reads_as H s2 w (contents_at hist w)).
Proof.
  intros R En [Rn Rr] Rm K. destruct (run_healthy H ops st xs n R En) as (x & Ex & Vx & Mx & Y). pose proof R as R'. apply run_inv in R' as [_ SI].
  pose proof (hy_len _ _ _ _ _ Y) as Len. assert (Hx : x ∈ (xrun H tb0 ops).1) by (by eapply elem_of_list_lookup_2).
  rewrite (last_at (history ops) n Len) in *.
  pose proof (si_trok _ _ _ _ _ _ SI) as TO.
  assert (Ne : last_contents (history ops) <> ∅).
  { destruct Rm as (nk & lf & Er & Ev). rewrite Er in Rr. destruct Rr as [El _]. apply (si_nodes _ _ _ _ _ _ SI) in El as [(y & Hy & Ny) _].
    assert (y = x) as -> by (apply (tr_inj H _ _ _ TO Hy Hx); destruct Ny as [Ny _]; rewrite <- Ny, Vx; exact Ev).
    destruct Ny as (_ & Nd & _). intros Z. rewrite Mx, Z, fmap_empty in Nd. rewrite node_at_null in Nd; [done|]. apply map_filter_empty. }
  destruct (healthy_append H st n (history ops) (a_ver (vs_a x)) rd set Y Rn Ne) as (b & s' & ver' & A1 & A2 & Y' & A3 & A4 & A5).
  - intros q L E. apply (si_stale _ _ _ _ _ _ SI) in E as (y & Hy & Ey & Sy).
    assert (y = x) as -> by (apply (tr_inj H _ _ _ TO Hy Hx); congruence).
    pose proof TO as (_ & _ & _ & T4 & _). refine (T4 x x _ Hx Hx Sy _ _); [lia|]. case_decide as D; [left; by rewrite D, Vx|right]. cbn [fst snd]. rewrite Mx. done.
  - exact Rm.
  - by apply keeps_safe.
  - assert (Old : forall w, readable ops w -> (w < n)%N -> oview H s' w (contents_at (history ops) w)).
    { intros w Rw Lw. eapply oview_keep; [by eapply run_oview|intros nk Ln; apply A4; lia|]. intros u k Lu. apply A5. lia. }
    exists b, s'. split; [exact A1|]. split; [exact A2|]. split; [rewrite <- A3; apply oview_reads; by eapply healthy_oview|]. split; [intros w Rw Lw; apply oview_reads; by apply Old|].
    intros sets hist. destruct (healthy_commits H sets s' n _ ver' Y') as (s2 & outs & ver2 & Q1 & Q2 & Q3 & Q4 & Q5).
    exists s2, outs. split; [exact Q1|]. split; [exact Q3|].
    assert (New : forall w, (n <= w <= n + N.of_nat (length sets))%N -> reads_as H s2 w (contents_at hist w)) by (intros w Lw; apply oview_reads; by apply Q5).
    split; [|exact New]. intros w Rw. pose proof Rw as [_ Lw]. rewrite En in Lw. destruct (decide (w = n)) as [->|Nw]; [apply New; lia|].
    apply oview_reads, Q4; [lia|]. assert (contents_at hist w = contents_at (history ops) w) as ->; [|apply Old; [done|lia]].
    unfold contents_at, hist, with_appended. rewrite <- app_assoc. rewrite take_app_le by (rewrite take_length; lia). rewrite take_take. by replace (S (N.to_nat w) `min` (length (history ops) - 1)) with (S (N.to_nat w)) by lia.
Qed.
(** Otherwise it is refused: a reader whose rightmost leaf was written at another version, or which has no leaf. *)
Theorem C68_refused H rd set n : match rd_rightmost rd with
  | Some (nk, _) => nk_version nk <> n -> exists e, append_value_set H rd set n = Err e
  | None => exists e, append_value_set H rd set n = Err e
  end.
Proof.
  unfold append_value_set, cache_new_overwrite. destruct (rd_rightmost rd) as [[nk lf]|]; [|by eexists]. intros Nv. apply N.eqb_neq in Nv. rewrite Nv. cbn. by eexists.
Qed.
(** It is accepted when the latest value set brought in a key that no version had before and no written key exceeds. *)
Theorem C68_accepted H ops st xs n rd k : run H ops = Ok (st, xs) -> num_versions ops = (n + 1)%N -> reads_store rd st ->
  contents_at (history ops) n !! k <> None ->
  (forall i s o, history ops !! i = Some s -> (N.of_nat i < n)%N -> (k, o) ∉ s) ->
  (forall s k' o, s ∈ history ops -> (k', o) ∈ s -> key_le k' k) ->
  exists nk lf, rd_rightmost rd = Some (nk, lf) /\ nk_version nk = n.
Proof.
  intros R En [Rn Rr] Kn Kb Kx. destruct (run_healthy H ops st xs n R En) as (x & Ex & Vx & Mx & Y). pose proof R as R'. apply run_inv in R' as [_ SI].
  pose proof (hy_len _ _ _ _ _ Y) as Len. rewrite (last_at (history ops) n Len) in *.
  destruct (last_contents (history ops) !! k) as [y|] eqn:Ek; [|done].
  destruct (leaf_live (H <$> last_contents (history ops)) k (H y)) as (q & L & Uq); [by rewrite lookup_fmap, Ek|].
  assert (Lf : exists nk, st_nodes st !! nk = Some (Leaf (LeafNode k (H y)))).
  { destruct (decide (q = [])) as [->|Nq].
    - exists (n, []). rewrite (hy_root _ _ _ _ _ Y). by rewrite (node_at_leaf H _ _ _ k (H y)).
    - exists (a_ver (vs_a x) q, q). destruct (hy_node _ _ _ _ _ Y q Nq L) as [_ ->]. by rewrite (node_at_leaf H _ _ _ k (H y)). }
  destruct Lf as [nk0 Lf]. destruct (rd_rightmost rd) as [[nk lf]|]; [|by apply Rr in Lf]. destruct Rr as [El Ml]. apply Ml in Lf. cbn [ln_key] in Lf.
  exists nk, lf. split; [done|]. apply (si_nodes _ _ _ _ _ _ SI) in El as [(z & Hz & Nz & Ez & _) _]. apply elem_of_list_lookup in Hz as (i & Ei).
  pose proof (si_map _ _ _ _ _ _ SI i z Ei) as Mz. pose proof (si_trok _ _ _ _ _ _ SI) as (T1 & _). rewrite (T1 i z Ei) in Nz. unfold nk_version. rewrite Nz.
  destruct lf as [k' h']. cbn [ln_key] in Lf. symmetry in Ez. apply leaf_one in Ez.
  assert (Ek' : a_map (vs_a z) !! k' = Some h').
  { assert (X : U nk.2 (a_map (vs_a z)) !! k' = Some h') by (rewrite Ez; apply lookup_singleton). by apply U_lookup in X as [X _]. }
  rewrite Mz, lookup_fmap in Ek'. destruct (contents_at (history ops) (N.of_nat i) !! k') as [y'|] eqn:Ey; [|done]. apply contents_written in Ey as (j & s & Ej & Lj & Hs). rewrite Nat2N.id in Lj.
  assert (k' = k) as -> by (apply key_le_antisym; [eapply Kx; [by eapply elem_of_list_lookup_2|done]|done]).
  destruct (decide (N.of_nat j < n)%N) as [D|D]; [by apply (Kb j s (Some y')) in Hs|]. apply lookup_lt_Some in Ei. rewrite (si_len _ _ _ _ _ _ SI) in Ei. lia.
Qed.

(** The hypotheses are met: two versions, the second bringing in the greatest key; a set that inserts and deletes. *)
Definition append_ops : list op := [Commit [[(K00, Some va)]]; Commit [[(K80, Some vb)]]].
Definition append_example_set : value_set := [(KC0, Some vc); (K00, None)].
Theorem C68_example : exists st xs b s', run toy append_ops = Ok (st, xs) /\
  append_value_set toy (store_reader st) append_example_set 1 = Ok (smt_root toy (<[ K80 := vb ]> {[ KC0 := vc ]}), b) /\
  write_tree_update_batch (overwritable st) b = Ok s' /\ reads_as toy s' 1 (<[ K80 := vb ]> {[ KC0 := vc ]}) /\
  reads_as toy s' 0 {[ K00 := va ]}.
Proof.
  destruct (run_ok toy append_ops) as (st & xs & R & _).
  assert (Rm : exists nk lf, rd_rightmost (store_reader st) = Some (nk, lf) /\ nk_version nk = 1%N).
  { apply (C68_accepted toy append_ops st xs 1 (store_reader st) K80); [exact R|reflexivity|apply store_reader_reads| | |].
    - assert (contents_at (history append_ops) 1 !! K80 = Some vb) as -> by (vm_compute; reflexivity). done.
    - intros i s o Ei Li. assert (i = 0) as -> by lia. injection Ei as <-. intros [E|E%elem_of_nil]%elem_of_cons; [|done]. discriminate E.
    - assert (Eh : history append_ops = [[(K00, Some va)]; [(K80, Some vb)]]) by reflexivity. rewrite Eh. intros s k' o Hs Hk. clear R. apply elem_of_cons in Hs as [Hs|Hs].
      2: apply elem_of_list_singleton in Hs.
      all: subst s; apply elem_of_list_singleton in Hk; apply (f_equal fst) in Hk; cbn [fst] in Hk; subst k'.
      + apply (bool_decide_eq_true_1 _). vm_compute. reflexivity.
      + by left. }
  destruct (C68_append toy append_ops st xs 1 (store_reader st) append_example_set R eq_refl (store_reader_reads st) Rm) as (b & s' & A1 & A2 & A3 & A4 & _).
  { intros i k Ei. destruct i as [|[|i]]; cbn in Ei; [done| |done]. injection Ei as <-. intros E. apply (f_equal (fun m => m !! K80)) in E. vm_compute in E. done. }
  assert (Em : apply_set (contents_at (history append_ops) 1) append_example_set = <[ K80 := vb ]> {[ KC0 := vc ]}) by (apply (bool_decide_eq_true_1 _); vm_compute; reflexivity).
  assert (E0 : contents_at (history append_ops) 0 = {[ K00 := va ]}) by (apply (bool_decide_eq_true_1 _); vm_compute; reflexivity).
  rewrite Em in A1, A3. specialize (A4 0%N). rewrite E0 in A4. exists st, xs, b, s'. split; [exact R|]. split; [exact A1|]. split; [exact A2|]. split; [exact A3|]. apply A4; [split; vm_compute; congruence|lia].
Qed.
