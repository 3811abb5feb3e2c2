(** Appending to the latest version (append_value_set): writing version [v] over itself. *)
From Verif Require Import Base Spec NodeType ProofDef TreeCache Tree Mock Driver KeyFacts SmtFacts ProofFacts NodeFacts Canon CanonSib ReadFacts PutFacts InsertFacts InsertInt InsertInt2 PutTop VersionFacts.
From Coq Require Import Lia.
Local Opaque Spec.smt.

(** the abstract tree while version [v] is rewritten: the map, the version of each live node, and which live nodes were
    written by the append *)
Record gtree : Type := GTree { g_map : gmap key vhash; g_ver : list nibble -> version; g_new : list nibble -> bool }.
Definition gstep (v : version) (g : gtree) (w : key * option vhash) : gtree :=
  if decide (noop (g_map g) w.1 w.2) then g
  else GTree (apply_vh (g_map g) w.1 w.2) (upd v w.1 (g_map g) (g_ver g)) (upd true w.1 (g_map g) (g_new g)).

Section app.
Context (H : list byte -> bytes32) (rd : reader) (v : version) (M0 : gmap key vhash) (ver0 : list nibble -> version).
Implicit Types (M : gmap key vhash) (ver : list nibble -> version) (p q : list nibble).
Notation T0 := (PutTop.T0 H M0 ver0).
Hypothesis Ne0 : M0 <> ∅.
Hypothesis Rt0 : ver0 [] = v.
Definition ABase (c : cache) : Prop := forall q, lv [] q M0 -> base rd c (ver0 q, q) = Some (node_at H M0 ver0 q).
Definition AInv (g : gtree) (c : cache) : Prop :=
  cnt_ok rd c /\ tc_next c = v /\ tc_root c = (v, []) /\
  ((g_map g <> ∅ /\ g_ver g [] = v /\ GInv H v T0 [] (g_map g) (g_ver g) (g_new g) c) \/
   (g_map g = ∅ /\ tc_nodes c = {[ (v, []) := Null ]} /\ forall x, x ∈ tc_stale c <-> is_Some (T0 x))).
Lemma abase_gbase c : ABase c -> GBase rd T0 c.
Proof. intros B [w q] nd (L & E & ->)%T0_some. cbn in *. subst w. by apply B. Qed.
Lemma abase_rest2 c c' : rest2 c' = rest2 c -> ABase c -> ABase c'.
Proof. unfold ABase. intros E B. by rewrite (base_rest2 rd c' c E). Qed.

Lemma append_put g c k vh : ABase c -> AInv g c -> ~ (g_map g = ∅ /\ vh = None) ->
  exists pf c', (forall wp, put H rd k vh v c wp = Ok (with_pf wp pf, c')) /\ AInv (gstep v g (k, vh)) c' /\ rest2 c' = rest2 c.
Proof.
  intros B (C & En & Er & V) Hne. destruct g as [M ver nw]. cbn [g_map g_ver g_new] in *. destruct V as [(Ne & Ev & I)|(-> & Nn & Es)].
  - assert (UN : forall M : gmap key vhash, U [] M = M) by (intros; apply U_nil).
    destruct (ginsert_at_canon H rd v T0 M ver nw k vh (key_nibbles k) [] c) as (res & pf & c1 & F & Pn & Pc); [done|by rewrite UN|done|by apply abase_gbase|done|].
    rewrite Ev in F. unfold gstep. cbn [g_map g_ver g_new fst snd]. case_decide as Hn.
    + destruct (Pn Hn) as (-> & -> & ->). eexists _, c. split; [intros wp; unfold put; by rewrite Er, F, bind_Ok|]. split; [|done]. split; [done|]. split; [done|]. split; [done|]. by left.
    + destruct (Pc Hn) as (Pres & PI & PO & PR & PC & n & _). rewrite !UN in Pres.
      pose proof (rest_rest2 _ _ PR) as PR2. destruct Pres as [[Z ->]|[Z ->]].
      * assert (Nn : tc_nodes c1 = ∅).
        { apply map_empty. intros [w q]. apply eq_None_not_Some. intros [nd E]. apply PI in E as (_ & L & _); [|apply prefix_nil]. by apply lv_nil_M in L. }
        destruct (put_ok rd (cache_set_root c1 (nk_root v)) (nk_root v) Null) as (c2 & P1 & P2 & P3 & P4 & P5).
        { cbn. by rewrite Nn, lookup_empty. } { by eapply cnt_ext. }
        eexists _, c2. split; [intros wp; unfold put; rewrite Er, F, bind_Ok; cbv beta iota zeta; rewrite P1, bind_Ok; reflexivity|].
        pose proof (rest_rest2 _ _ P4) as P42. split; [|rewrite P42; exact PR2].
        split; [done|]. split; [unfold rest2 in P42, PR2; cbn in P42; congruence|]. split; [unfold rest in P4; cbn in P4; by injection P4|]. right. cbn [g_map]. split; [done|]. split; [rewrite P2; cbn; rewrite Nn; done|].
        intros [w q]. rewrite P3. cbn. destruct PI as (_ & PI & _). rewrite PI by apply prefix_nil. split; [by intros [? _]|]. intros E. split; [done|]. intros [L _]. by apply lv_nil_M in L.
      * eexists _, (cache_set_root c1 (v, [])). split; [intros wp; unfold put; rewrite Er, F, bind_Ok; reflexivity|]. split; [|exact PR2].
        split; [by eapply cnt_ext|]. split; [unfold rest2 in PR2; cbn; congruence|]. split; [done|]. left. cbn [g_map g_ver g_new]. split; [done|]. split; [apply upd_prefix, prefix_nil|]. exact PI.
  - destruct vh as [h|]; [|exfalso; by apply Hne]. assert (Hn : ~ noop ∅ k (Some h)) by (by intros [? _]).
    unfold gstep. cbn [g_map g_ver g_new fst snd]. rewrite decide_False by done.
    destruct (delete_ok rd c (v, []) Null) as (c1 & D1 & D2 & D3 & D4 & D5).
    { apply cache_node_in. rewrite Nn. apply lookup_singleton. } { rewrite Nn. intros Y. by rewrite lookup_singleton in Y. } { done. }
    assert (Nn1 : tc_nodes c1 = ∅) by (by rewrite D2, Nn, delete_singleton).
    assert (Es1 : forall x, x ∈ tc_stale c1 <-> is_Some (T0 x)). { intros y. rewrite D3, Es, Nn, lookup_singleton. naive_solver. }
    destruct (create_ok rd (v, []) k h c1) as (c2 & F1 & F2 & F3 & F4 & F5); [by rewrite Nn1|done|].
    eexists (SMProof None []), (cache_set_root c2 (v, [])). split.
    { intros wp. unfold put. rewrite Er. destruct (key_nibbles k) as [|x l] eqn:Ek; [by pose proof (key_nibbles_length k) as Lk; rewrite Ek in Lk|].
      cbn [insert_at]. rewrite (cache_node_in _ _ _ Null) by (rewrite Nn; apply lookup_singleton). rewrite bool_decide_eq_true_2 by done. cbn [negb nk_version nk_path fst snd andb]. rewrite N.eqb_refl. cbn [andb].
      cbn [node_is_leaf] in D1. rewrite D1, bind_Ok. cbn [app]. unfold nk_root. rewrite F1, !bind_Ok. done. }
    pose proof (rest_rest2 _ _ F4) as R4. pose proof (rest_rest2 _ _ D4) as R1. split; [|etransitivity; [exact R4|exact R1]].
    split; [by eapply cnt_ext|]. split; [unfold rest2 in R4, R1; cbn; congruence|]. split; [done|]. left. cbn [g_map g_ver g_new apply_vh].
    split; [apply insert_non_empty|]. split; [apply upd_prefix, prefix_nil|].
    assert (UE : U [] (<[k := h]> (∅ : gmap key vhash)) = {[ k := h ]}) by (by rewrite U_nil).
    assert (Vp : upd v k ∅ ver [] = v) by (apply upd_prefix, prefix_nil). assert (Np : upd true k ∅ nw [] = true) by (apply upd_prefix, prefix_nil).
    assert (Lv : forall q, lv [] q (<[k := h]> ∅) <-> q = []).
    { intros q. rewrite lv_small; rewrite UE, ?map_size_singleton; [|lia]. split; [by intros [? _]|]. intros ->. split; [done|]. apply single_ne. }
    assert (Nd : node_at H (<[k := h]> ∅) (upd v k ∅ ver) [] = Leaf (LeafNode k h)) by (by apply node_at_leaf).
    split_and!.
    + intros w q nd _. cbn [cache_set_root tc_nodes]. rewrite F2, Nn1, lookup_insert_Some, Lv, lookup_empty. split.
      * intros [[[= <- <-] <-]|[_ ?]]; [|done]. by rewrite Np, Nd.
      * intros (-> & -> & _ & ->). left. by rewrite Nd.
    + intros w q _. cbn [cache_set_root tc_stale]. rewrite F3, Es1, Lv. split; [|by intros [? _]]. intros E. split; [done|]. intros (-> & E2 & _). congruence.
    + intros q ->%Lv E. congruence.
    + intros q ->%Lv _. done.
Qed.

Definition gset_fold (g : gtree) (s : wset) : gtree := fold_left (fun g w => gstep v g (w.1, H <$> w.2)) s g.
Lemma gstep_map g w : g_map (gstep v g w) = apply_vh (g_map g) w.1 w.2.
Proof. unfold gstep. case_decide as N; [|done]. destruct N as [-> E]. cbn. by rewrite delete_notin. Qed.
Lemma gset_map s : forall g, g_map (gset_fold g s) = mset H (g_map g) s.
Proof. induction s as [|w s IH]; intros g; [done|]. unfold gset_fold, mset in *. cbn [fold_left]. by rewrite IH, gstep_map. Qed.

(** no deletion meets an empty tree *)
Fixpoint safe M (s : wset) : Prop := match s with [] => True | w :: s => ~ (M = ∅ /\ w.2 = None) /\ safe (apply_vh M w.1 (H <$> w.2)) s end.
Lemma append_set s : forall g c, ABase c -> AInv g c -> safe (g_map g) s ->
  exists c', put_set H rd v s c = Ok c' /\ AInv (gset_fold g s) c' /\ rest3 c' = rest3 c /\ tc_values c' = vset v s (tc_values c) /\ ABase c'.
Proof.
  induction s as [|[k x] s IH]; intros g c B V Sf; [by exists c|]. destruct Sf as [Sf1 Sf2]. cbn [fst snd] in *.
  set (c0 := cache_put_value c v k x).
  assert (B0 : ABase c0) by exact B.
  assert (V0 : AInv g c0). { destruct V as (V1 & V2 & V3 & V4). split; [by eapply cnt_ext|]. split; [done|]. split; [done|]. exact V4. }
  destruct (append_put g c0 k (H <$> x) B0 V0) as (pf & c1 & F & V1 & R1).
  { intros [E E2]. apply Sf1. split; [done|]. by destruct x. }
  destruct (IH _ c1 (abase_rest2 _ _ R1 B0) V1) as (c' & F1 & F3 & F4 & F5 & F6); [by rewrite gstep_map|].
  unfold rest2 in R1. cbn in R1. injection R1 as Q1 Q2 Q3 Q4 Q5 Q6 Q7. unfold rest3 in F4. injection F4 as Y1 Y2 Y3 Y4 Y5 Y6.
  exists c'. split.
  { cbn [put_set]. fold c0. change (value_hash H <$> x) with (H <$> x). rewrite (F false), bind_Ok. exact F1. }
  split; [exact F3|]. split; [unfold rest3; congruence|]. split; [|done].
  rewrite F5. unfold vset. cbn [fold_left]. f_equal. exact Q2.
Qed.

(** the root node, and the live nodes, as the cache sees them *)
Lemma append_read g c q : ABase c -> AInv g c -> q = [] \/ lv [] q (g_map g) -> cache_node rd c (if decide (q = []) then v else g_ver g q, q) = Some (node_at H (g_map g) (g_ver g) q).
Proof.
  intros B (_ & _ & _ & V) Hq. destruct V as [(Ne & Ev & I)|(Z & Nn & _)].
  - assert (L : lv [] q (g_map g)) by (destruct Hq as [->|?]; [apply lv_self; by rewrite U_nil|done]).
    assert ((if decide (q = []) then v else g_ver g q) = g_ver g q) as -> by (case_decide as D; [by rewrite D|done]).
    apply (ginv_read H rd v T0 [] _ _ (g_new g)); [done|by apply abase_gbase|done].
  - destruct Hq as [->|L]; [|apply lv_nil_M in L; done]. rewrite decide_True by done. rewrite (cache_node_in _ _ _ Null) by (rewrite Nn; apply lookup_singleton).
    rewrite Z, node_at_null; [done|apply U_nil].
Qed.
Lemma append_nodes_v g c nk : AInv g c -> is_Some (tc_nodes c !! nk) -> nk.1 = v.
Proof.
  intros (_ & _ & _ & V) [nd E]. destruct nk as [w q]. destruct V as [(_ & _ & I & _)|(_ & Nn & _)].
  - apply I in E as [-> _]; [done|apply prefix_nil].
  - rewrite Nn in E. apply lookup_singleton_Some in E as [[= <- <-] _]. done.
Qed.
Lemma append_stale_T0 g c nk : AInv g c -> nk ∈ tc_stale c -> is_Some (T0 nk).
Proof.
  intros (_ & _ & _ & V) E. destruct nk as [w q]. destruct V as [(_ & _ & _ & I & _)|(_ & _ & I)]; [|by apply I]. apply I in E as [? _]; [done|apply prefix_nil].
Qed.
Lemma append_freeze g c : ABase c -> AInv g c -> exists c' N, cache_freeze H rd c = Ok c' /\
  fz_nodes c' = N ∪ fz_nodes c /\ fz_values c' = tc_values c ∪ fz_values c /\ fz_stale c' = set_map (pair v) (tc_stale c) ∪ fz_stale c /\
  fz_roots c' = fz_roots c ++ [ms H [] (g_map g)] /\ (forall nk, is_Some (N !! nk) -> nk.1 = v) /\
  (forall nk, match N !! nk with Some nd => Some nd | None => base rd c nk end = cache_node rd c nk).
Proof.
  intros B V. pose proof (append_read g c [] B V (or_introl eq_refl)) as Rt. rewrite decide_True in Rt by done.
  pose proof V as (C & En & Er & _). assert (Hr : node_hash H (node_at H (g_map g) (g_ver g) []) = Ok (ms H [] (g_map g))) by (by rewrite node_hash_canon).
  unfold cache_freeze. rewrite Er, Rt, bind_Ok. cbv beta iota. rewrite Hr, bind_Ok, En.
  destruct ((0 <? v)%N && bool_decide (tc_nodes c = ∅) && bool_decide (tc_stale c = ∅)) eqn:E.
  - apply andb_true_iff in E as [E _]. apply andb_true_iff in E as [_ E]. apply bool_decide_eq_true in E.
    unfold cache_get_node. rewrite Er, Rt. cbn [ok_or]. rewrite bind_Ok. unfold nk_set_version. cbn [snd].
    destruct (put_ok rd c (v, []) (node_at H (g_map g) (g_ver g) [])) as (c1 & P1 & P2 & P3 & P4 & P5); [by rewrite E|done|].
    rewrite P1, bind_Ok. eexists _, (tc_nodes c1). split; [reflexivity|]. cbn [fz_nodes fz_values fz_stale fz_roots]. unfold rest in P4. injection P4 as R1 R2 R3 R4 R5 R6 R7 R8.
    rewrite R2, R3, R4, R5, R6, R8, P3. split_and!; [done..|by rewrite En|done| |].
    + intros [w q] [nd X]. rewrite P2, E, insert_empty in X. apply lookup_singleton_Some in X as [[= <- <-] _]. done.
    + intros nk. rewrite P2, E, insert_empty. destruct (decide (nk = (v, []))) as [->|N]; [by rewrite lookup_singleton|]. rewrite lookup_singleton_ne by done. by rewrite cache_node_out by (by rewrite E).
  - rewrite bind_Ok. eexists _, (tc_nodes c). split; [reflexivity|]. cbn [fz_nodes fz_values fz_stale fz_roots]. rewrite En. split; [done|]. split; [done|]. split; [done|]. split; [done|]. split.
    + intros nk. by apply (append_nodes_v g).
    + intros nk. by rewrite cache_node_base.
Qed.
(** versions of the nodes *)
Lemma gset_new s : forall g k x, (k, Some x) ∈ s -> forall q, q `prefix_of` key_nibbles k -> g_new (gset_fold g s) q = true.
Proof.
  assert (Mono : forall s g q, g_new g q = true -> g_new (gset_fold g s) q = true).
  { clear s. induction s as [|w s IH]; intros g q E; [done|]. unfold gset_fold in *. cbn [fold_left]. apply IH. unfold gstep. case_decide; [done|]. cbn [g_new]. unfold upd. case_decide; [done|]. by case_decide. }
  induction s as [|w s IH]; intros g k x Hk q Hq; [by apply elem_of_nil in Hk|]. apply elem_of_cons in Hk as [<-|Hk].
  - unfold gset_fold. cbn [fold_left]. apply (Mono s). unfold gstep. cbn [fst snd]. rewrite decide_False by (by intros [? _]). cbn [g_new]. by apply upd_prefix.
  - unfold gset_fold in *. cbn [fold_left]. by eapply IH.
Qed.

(** what the append does, given a reader of the tree (M0, ver0) *)
Definition overlay (b : tree_batch) (nk : nodekey) : option node := match tb_nodes b !! nk with Some nd => Some nd | None => rd_node rd nk end.
Lemma append_result s : (forall q, lv [] q M0 -> rd_node rd (ver0 q, q) = Some (node_at H M0 ver0 q)) -> safe M0 s ->
  (exists nk lf, rd_rightmost rd = Some (nk, lf) /\ nk.1 = v) ->
  let g := gset_fold (GTree M0 ver0 (fun _ => false)) s in
  exists b, append_value_set H rd s v = Ok (ms H [] (g_map g), b) /\ tb_values b = vset v s ∅ /\
    (forall nk, is_Some (tb_nodes b !! nk) -> nk.1 = v) /\ (forall w nk, (w, nk) ∈ tb_stale b -> w = v /\ is_Some (T0 nk)) /\
    overlay b (v, []) = Some (node_at H (g_map g) (g_ver g) []) /\ (forall q, lv [] q (g_map g) -> overlay b (g_ver g q, q) = Some (node_at H (g_map g) (g_ver g) q)) /\
    (g_map g <> ∅ -> g_ver g [] = v) /\
    (forall q, lv [] q (g_map g) -> g_new g q = true /\ g_ver g q = v \/ g_new g q = false /\ lv [] q M0 /\ ver0 q = g_ver g q /\ node_at H M0 ver0 q = node_at H (g_map g) (g_ver g) q).
Proof.
  intros Hl Sf (nk0 & lf & Er & Ev) g. set (c0 := mkCache (nk_root v) v ∅ ∅ 0 ∅ 0 ∅ ∅ ∅ [] []).
  assert (B0 : ABase c0). { intros q L. unfold base. cbn [c0 fz_nodes]. rewrite lookup_empty. by apply Hl. }
  assert (V0 : AInv (GTree M0 ver0 (fun _ => false)) c0).
  { split; [split; cbn; [by rewrite map_filter_empty, map_size_empty|by rewrite (filter_empty_L (fun nk => leafy (base rd c0 nk) = true)), size_empty]|]. split; [done|]. split; [done|]. left. cbn [g_map g_ver g_new]. split; [done|]. split; [done|].
    split_and!.
    - intros w q nd _. cbn. rewrite lookup_empty. split; [done|]. by intros (_ & _ & ? & _).
    - intros w q _. cbn [c0 tc_stale]. rewrite T0_is. split; [by intros ?%elem_of_empty|]. intros [[? ?] X]. exfalso. apply X. done.
    - intros q L _. by apply T0_live.
    - done. }
  destruct (append_set s _ c0 B0 V0 Sf) as (c1 & P1 & V1 & R1 & Tv & B1). fold g in V1.
  destruct (append_freeze g c1 B1 V1) as (c2 & N & P2 & F1 & F2 & F3 & F4 & F5 & F6).
  unfold rest3 in R1. injection R1 as Q1 Q2 Q3 Q4 Q5 Q6. rewrite Q2 in F1. rewrite Q3, Tv in F2. rewrite Q4 in F3. rewrite Q6 in F4. cbn [c0 fz_nodes fz_values fz_stale fz_roots] in *.
  rewrite map_union_empty in F1. rewrite union_empty_r_L in F3. cbn [app] in F4. assert (F2' : fz_values c2 = vset v s ∅) by (rewrite F2; apply map_union_empty). clear F2. rename F2' into F2.
  exists (cache_into c2).2.
  assert (Ov : forall nk, overlay (cache_into c2).2 nk = cache_node rd c1 nk).
  { intros nk. rewrite <- F6. unfold overlay, base. cbn [cache_into snd tb_nodes]. rewrite F1, Q2. cbn [c0 fz_nodes]. by rewrite lookup_empty. }
  split. { unfold append_value_set, cache_new_overwrite. rewrite Er. unfold nk_version. rewrite Ev, N.eqb_refl. cbn [ensure_]. rewrite !bind_Ok. fold c0. rewrite P1, bind_Ok, P2, bind_Ok. unfold cache_into. rewrite F4. reflexivity. }
  cbn [cache_into snd tb_values tb_nodes tb_stale]. split; [exact F2|]. split; [intros nk; rewrite F1; apply F5|].
  split. { intros w nk. rewrite F3. intros (y & [= -> ->] & Y)%elem_of_map. split; [done|]. by eapply append_stale_T0. }
  split. { rewrite Ov. pose proof (append_read g c1 [] B1 V1 (or_introl eq_refl)) as X. by rewrite decide_True in X. }
  assert (Rv : g_map g <> ∅ -> g_ver g [] = v) by (intros Ne; destruct V1 as (_ & _ & _ & [(_ & E & _)|[? _]]); done).
  split. { intros q L. rewrite Ov. pose proof (append_read g c1 q B1 V1 (or_intror L)) as X. case_decide as D; [|done]. subst q. rewrite Rv by (by eapply lv_nil_M). exact X. }
  split; [exact Rv|]. intros q L. destruct V1 as (_ & _ & _ & [(_ & _ & _ & _ & I3 & I4)|[Z _]]); [|by apply lv_nil_M in L].
  destruct (g_new g q) eqn:E; [left; split; [done|by apply I4]|right]. split; [done|]. specialize (I3 q L E). apply T0_some in I3 as (X1 & X2 & X3). cbn in *. done.
Qed.
End app.
