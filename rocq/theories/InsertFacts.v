(** insert_at builds the canonical tree of the updated map. *)
From Verif Require Import Base Spec NodeType ProofDef TreeCache Tree KeyFacts SmtFacts ProofFacts NodeFacts Canon CanonSib ReadFacts PutFacts.
From Coq Require Import Lia.
Local Opaque Spec.smt.

Section ins.
Context (H : list byte -> bytes32) (rd : reader) (v : version) (T0 : nodekey -> option node).
Implicit Types (M : gmap key vhash) (ver : list nibble -> version) (nw : list nibble -> bool) (p q : list nibble).
Notation Inv := (GInv H v T0).
Notation Base0 := (GBase rd T0).

Definition noop M (k : key) (vh : option vhash) : Prop := vh = None /\ M !! k = None.
(** what insert_at at path [p] must do *)
Definition post M ver nw k vh p c (f : bool -> outcome (put_result * option sm_proof * cache)) : Prop :=
  let M' := apply_vh M k vh in
  let ver' := upd v k M ver in
  exists res pf c', (forall wp, f wp = Ok (res, with_pf wp pf, c')) /\
  (noop M k vh -> res = NotChanged /\ pf = SMProof None [] /\ c' = c) /\
  (~ noop M k vh ->
    ((U p M' = ∅ /\ res = Removed) \/ (U p M' <> ∅ /\ res = Updated (v, p) (node_at H M' ver' p))) /\
    Inv p M' ver' (upd true k M nw) c' /\ outside p c c' /\ rest c' = rest c /\ cnt_ok rd c' /\
    exists n, 4 * length p <= n <= 256 /\ pf = SMProof (hleaf M k n) (rev (map (hsib H M k) (seq (4 * length p) (n - 4 * length p)))) /\
      size (under (kpre n k) M) <= 1 /\ forall j, 4 * length p <= j < n -> 2 <= size (under (kpre j k) M)).

Lemma outside_refl p c : outside p c c.
Proof. intros w q _. done. Qed.

(** the chain of single-child nodes *)
Lemma chain_canon M' ver' p : forall cp c,
  (forall q, p `prefix_of` q -> q `prefix_of` (p ++ cp) -> size (U q M') = 2 /\ ver' q = v) ->
  (forall q x m, p `prefix_of` q -> (q ++ [x]) `prefix_of` (p ++ cp) -> m <> x -> U (q ++ [m]) M' = ∅) ->
  (forall q, p `prefix_of` q -> q `prefix_of` (p ++ cp) -> q <> p ++ cp -> tc_nodes c !! (v, q) = None) -> cnt_ok rd c ->
  exists c', chain_loop H (length cp) v (p ++ cp) (v, p ++ cp) (mkInternal (children_of H M' ver' (p ++ cp)) 2) c =
      Ok ((v, p), mkInternal (children_of H M' ver' p) 2, c') /\
    (forall w q nd, tc_nodes c' !! (w, q) = Some nd <->
      (w = v /\ p `prefix_of` q /\ q `prefix_of` (p ++ cp) /\ q <> p ++ cp /\ nd = node_at H M' ver' q) \/ tc_nodes c !! (w, q) = Some nd) /\
    tc_stale c' = tc_stale c /\ rest c' = rest c /\ cnt_ok rd c'.
Proof.
  induction cp as [|x cp IH] using rev_ind; intros c H1 H2 H3 C.
  - rewrite app_nil_r. exists c. split; [done|]. split; [|done]. intros w q nd. split; [by right|].
    intros [(-> & A1 & A2 & A3 & _)|?]; [|done]. exfalso. apply A3. by apply (anti_symm prefix).
  - rewrite app_length. cbn [length]. rewrite Nat.add_1_r. cbn [chain_loop]. rewrite app_assoc.
    assert (Pop : path_pop ((p ++ cp) ++ [x]) = Some (x, p ++ cp)).
    { unfold path_pop. rewrite rev_app_distr. cbn. by rewrite rev_involutive. }
    rewrite Pop. cbn [unwrap]. rewrite bind_Ok. cbn beta iota.
    assert (Pf : p `prefix_of` ((p ++ cp) ++ [x])) by (rewrite <- app_assoc; by eexists).
    destruct (H1 ((p ++ cp) ++ [x])) as [S1 V1]; [done|by rewrite app_assoc|].
    destruct (H1 (p ++ cp)) as [S0 V0]; [by eexists|rewrite app_assoc; by eexists|].
    rewrite in_hash_canon by (apply U_many_len with M'; lia). rewrite bind_Ok. cbn [in_leaf_count].
    assert (Ech : {[x := Child (ms H (bits ((p ++ cp) ++ [x])) M') v (NTInternal 2)]} = children_of H M' ver' (p ++ cp)).
    { apply children_ext. intros m. rewrite children_of_lookup. destruct (decide (m = x)) as [->|Hne].
      - rewrite lookup_singleton. unfold child_of. rewrite S1, V1. done.
      - rewrite lookup_singleton_ne by done. symmetry. apply child_of_none. apply (H2 (p ++ cp) x m); [by eexists|by rewrite <- !app_assoc|done]. }
    rewrite Ech. rewrite internal_new_canon by lia. rewrite bind_Ok.
    assert (N0 : node_at H M' ver' (p ++ cp) = Internal (mkInternal (children_of H M' ver' (p ++ cp)) (size (U (p ++ cp) M')))).
    { apply node_at_internal. lia. }
    rewrite <- N0.
    assert (Ne0 : p ++ cp <> (p ++ cp) ++ [x]).
    { intros Z. apply (f_equal length) in Z. rewrite !app_length in Z. simpl in Z. lia. }
    destruct (put_ok rd c (v, p ++ cp) (node_at H M' ver' (p ++ cp))) as (c1 & E1 & En & Es & Er & Ec); [|done|].
    { apply H3; [by eexists|rewrite app_assoc; by eexists|by rewrite app_assoc]. }
    rewrite E1, bind_Ok. rewrite S0.
    destruct (IH c1) as (c' & F1 & F2 & F3 & F4 & F5).
    + intros q A1 A2. apply H1; [done|]. etransitivity; [exact A2|]. rewrite app_assoc. by eexists.
    + intros q y m A1 A2 A3. apply (H2 q y m); [done| |done]. etransitivity; [exact A2|]. rewrite app_assoc. by eexists.
    + intros q A1 A2 A3. rewrite En, lookup_insert_ne by congruence. apply H3; [done| |].
      * etransitivity; [exact A2|]. rewrite app_assoc. by eexists.
      * intros ->. apply prefix_length in A2. rewrite !app_length in A2. simpl in A2. lia.
    + done.
    + exists c'. split; [done|]. split; [|split_and!; congruence]. intros w q nd. rewrite F2, En, lookup_insert_Some. split.
      * intros [(-> & A1 & A2 & A3 & ->)|[[[= <- <-] <-]|[_ A]]]; [left| |by right].
        -- split; [done|]. split; [done|]. split; [etransitivity; [exact A2|]; by eexists|]. split; [|done].
           intros ->. apply prefix_length in A2. rewrite !app_length in A2. simpl in A2. lia.
        -- left. split; [done|]. split; [by eexists|]. split; [by eexists|]. split; done.
      * intros [(-> & A1 & A2 & A3 & ->)|A].
        -- destruct A2 as [z A2]. destruct z as [|y z _] using rev_ind; [exfalso; rewrite app_nil_r in A2; congruence|].
           rewrite app_assoc in A2. apply app_inj_2 in A2 as [A2 _]; [|done].
           destruct (decide (q = p ++ cp)) as [->|Hq]; [by right; left|].
           left. split; [done|]. split; [done|]. split; [by exists z|done].
        -- right; right. split; [|done]. intros [= <- <-].
           rewrite H3 in A; [done|by eexists|rewrite app_assoc; by eexists|by rewrite app_assoc].
Qed.

(** *** at a leaf *)
Lemma insert_leaf M ver nw k vh rem p c k0 h0 :
  key_nibbles k = p ++ rem -> U p M = {[ k0 := h0 ]} -> Inv p M ver nw c -> Base0 c -> cnt_ok rd c ->
  post M ver nw k vh p c (insert_at_leaf_node H (ver p, p) (LeafNode k0 h0) v p rem vh c).
Proof.
  intros Ek EU I B C.
  assert (Ek0 : U p M !! k0 = Some h0) by (rewrite EU; apply lookup_singleton).
  apply U_lookup in Ek0 as [Hk0 [r0 Er0]].
  assert (Pk : p `prefix_of` key_nibbles k) by (by exists rem).
  assert (Pk0 : p `prefix_of` key_nibbles k0) by (by exists r0).
  pose proof (prefix_len_64 _ _ Pk) as L64.
  assert (Ne : U p M <> ∅) by (rewrite EU; apply single_ne).
  assert (S1 : size (U p M) = 1) by (by rewrite EU, map_size_singleton).
  assert (Lf : node_at H M ver p = Leaf (LeafNode k0 h0)) by (by apply node_at_leaf).
  assert (Pf : exists n, 4 * length p <= n <= 256 /\
     SMProof (Some (LeafNode k0 h0)) [] = SMProof (hleaf M k n) (rev (map (hsib H M k) (seq (4 * length p) (n - 4 * length p)))) /\
      size (under (kpre n k) M) <= 1 /\ forall j, 4 * length p <= j < n -> 2 <= size (under (kpre j k) M)).
  { exists (4 * length p). rewrite Nat.sub_diag. cbn [seq map rev]. rewrite (hleaf_single _ _ _ k0 h0).
    - rewrite kpre_bits by done. unfold U in S1. rewrite S1. split_and!; try done; lia.
    - by rewrite kpre_bits. }
  unfold post, insert_at_leaf_node. cbn [ln_key].
  rewrite (lcp_prefix p (key_nibbles k0)) by done. rewrite Nat.eqb_refl. cbn [assert_].
  rewrite Er0, drop_app.
  pose proof (ginv_delete H rd v T0 p M ver nw c true I B C Ne ltac:(by rewrite Lf)) as (c1 & D1 & D2 & D3 & D4 & D5).
  destruct (decide (k = k0)) as [<-|Hk].
  - (* same key *)
    assert (r0 = rem) as -> by (rewrite Ek in Er0; by apply app_inv_head in Er0).
    rewrite (lcp_prefix rem rem) by done. rewrite take_ge, drop_ge by lia.
    assert (Nn : ~ noop M k vh) by (intros [_ E]; congruence).
    destruct vh as [h|].
    + destruct (create_ok rd (v, p) k h c1) as (c2 & F1 & F2 & F3 & F4 & F5); [|done|].
      { rewrite D2. destruct (decide (ver p = v)) as [<-|E]; [apply lookup_delete|]. rewrite lookup_delete_ne by congruence.
        eapply ginv_nodes_none; [done|done|]. intros (_ & L & E2). apply E. by apply I. }
      eexists (Updated (v, p) (Leaf (LeafNode k h))), (SMProof (Some (LeafNode k h0)) []), c2. split.
      { intros wp. rewrite !bind_Ok. cbn [assert_]. rewrite bind_Ok, D1, bind_Ok.
        unfold nk_set_version. cbn [snd]. rewrite app_nil_r, <- Ek, F1, bind_Ok. done. }
      split; [done|]. intros _.
      assert (EU' : U p (apply_vh M k (Some h)) = {[ k := h ]}).
      { cbn [apply_vh]. rewrite U_insert_in by done. rewrite EU. apply insert_singleton. }
      assert (Vp : upd v k M ver p = v) by (by apply upd_prefix).
      assert (Np : upd true k M nw p = true) by (by apply upd_prefix).
      assert (Lf' : node_at H (apply_vh M k (Some h)) (upd v k M ver) p = Leaf (LeafNode k h)) by (by apply node_at_leaf).
      assert (Lv' : forall q, lv p q (apply_vh M k (Some h)) <-> q = p).
      { intros q. rewrite lv_small; [|rewrite EU', map_size_singleton; lia]. split; [by intros [-> _]|]. intros ->.
        split; [done|]. rewrite EU'. apply single_ne. }
      assert (Lv : forall q, lv p q M <-> q = p).
      { intros q. rewrite lv_small by lia. split; [by intros [-> _]|]. intros ->. done. }
      split_and!; [| | |congruence|done|done].
      * right. split; [rewrite EU'; apply single_ne|]. by rewrite Lf'.
      * split_and!.
        -- intros w q nd Hq. rewrite F2, D2, lookup_insert_Some, lookup_delete_Some. rewrite Lv'. split.
           ++ intros [[[= <- <-] <-]|(E1 & E2 & E3)]; [by rewrite Np, Lf'|].
              apply I in E3 as (-> & ->%Lv & E3 & _); [|done]. exfalso. apply E2. f_equal. apply I; [by apply Lv|done].
           ++ intros (-> & -> & _ & ->). left. by rewrite Lf'.
        -- intros w q Hq. rewrite F3, D3. destruct I as (I1 & I2 & I3 & I4). rewrite (I2 _ _ Hq), Lv', Lv. split.
           ++ intros [[E1 E2]|[[= -> ->] E2]].
              ** split; [done|]. intros (-> & E3 & _). congruence.
              ** split; [|intros (_ & E3 & _); congruence]. rewrite I3; [eauto|by apply Lv|done].
           ++ intros [E1 E2]. destruct (decide (q = p /\ nw p = false /\ ver p = w)) as [(-> & E3 & <-)|E3]; [right; done|left].
              split; [done|]. intros (-> & E4 & E5). by apply E3.
        -- intros q ->%Lv'. congruence.
        -- intros q ->%Lv'. done.
      * intros w q Hq. assert (q <> p) by (intros ->; by apply Hq). rewrite F2, D2, lookup_insert_ne, lookup_delete_ne by congruence.
        split; [done|]. rewrite F3, D3. naive_solver.
    + eexists Removed, (SMProof (Some (LeafNode k h0)) []), c1. split.
      { intros wp. rewrite !bind_Ok. cbn [assert_]. rewrite bind_Ok, D1, bind_Ok. done. }
      split; [done|]. intros _.
      assert (EU' : U p (apply_vh M k None) = ∅).
      { cbn [apply_vh]. rewrite U_delete, EU. apply delete_singleton. }
      assert (Lv' : forall q, ~ lv p q (apply_vh M k None)).
      { intros q. rewrite lv_small; [|rewrite EU', map_size_empty; lia]. rewrite EU'. naive_solver. }
      assert (Lv : forall q, lv p q M <-> q = p).
      { intros q. rewrite lv_small by lia. split; [by intros [-> _]|]. intros ->. done. }
      split_and!; [by left| | |done|done|done].
      * split_and!.
        -- intros w q nd Hq. rewrite D2, lookup_delete_Some. split; [|intros (_ & E & _); by apply Lv' in E].
           intros (E2 & E3). apply I in E3 as (-> & ->%Lv & E3 & _); [|done]. exfalso. apply E2. f_equal. apply I; [by apply Lv|done].
        -- intros w q Hq. rewrite D3. destruct I as (I1 & I2 & I3 & I4). rewrite (I2 _ _ Hq), Lv. split.
           ++ intros [[E1 E2]|[[= -> ->] E2]]; (split; [|intros [E _]; by apply Lv' in E]); [done|].
              rewrite I3; [eauto|by apply Lv|done].
           ++ intros [E1 E2]. destruct (decide (q = p /\ nw p = false /\ ver p = w)) as [(-> & E3 & <-)|E3]; [right; done|left].
              split; [done|]. intros (-> & E4 & E5). by apply E3.
        -- intros q E. by apply Lv' in E.
        -- intros q E. by apply Lv' in E.
      * intros w q Hq. assert (q <> p) by (intros ->; by apply Hq). rewrite D2, lookup_delete_ne by congruence.
        split; [done|]. rewrite D3. naive_solver.
  - (* different key *)
    set (cm := lcp rem r0).
    assert (Lrem : length rem = length r0).
    { pose proof (key_nibbles_length k) as L1. pose proof (key_nibbles_length k0) as L2. rewrite Ek, app_length in L1.
      rewrite Er0, app_length in L2. lia. }
    pose proof (lcp_take rem r0) as Tk. fold cm in Tk.
    pose proof (lcp_le_l rem r0) as Cl. fold cm in Cl.
    assert (Cne : cm < length rem).
    { destruct (decide (cm = length rem)) as [E|]; [|lia]. exfalso. apply Hk. apply key_nibbles_inj. rewrite Ek, Er0. f_equal.
      rewrite E in Tk. rewrite take_ge in Tk by lia. rewrite take_ge in Tk by lia. done. }
    destruct (drop cm rem) as [|n rem2] eqn:Dr.
    { apply (f_equal length) in Dr. rewrite drop_length in Dr. simpl in Dr. lia. }
    destruct (drop cm r0) as [|o r2] eqn:D0.
    { apply (f_equal length) in D0. rewrite drop_length in D0. simpl in D0. lia. }
    assert (Hno : n <> o).
    { eapply (lcp_lookup_ne rem r0); fold cm; rewrite <- (Nat.add_0_r cm), <- lookup_drop; [rewrite Dr|rewrite D0]; done. }
    set (cp := take cm rem) in *.
    assert (Erem : rem = cp ++ n :: rem2) by (rewrite <- Dr; symmetry; apply take_drop).
    assert (Er : r0 = cp ++ o :: r2) by (rewrite <- D0, Tk; symmetry; apply take_drop).
    assert (Lcp : length cp = cm) by (unfold cp; rewrite take_length; lia).
    destruct vh as [h|].
    2: { exists NotChanged, (SMProof None []), c. split; [intros wp; by rewrite bind_Ok|]. split; [done|].
      intros Nn. exfalso. apply Nn. split; [done|].
      destruct (M !! k) as [h|] eqn:Mk; [|done]. assert (U p M !! k = Some h) as E by (by apply U_lookup).
      rewrite EU in E. apply lookup_singleton_Some in E as [E _]. congruence. }
    set (M' := apply_vh M k (Some h)). set (ver' := upd v k M ver).
    assert (Km : (p ++ cp) `prefix_of` key_nibbles k) by (rewrite Ek, Erem, app_assoc; by eexists).
    assert (Km0 : (p ++ cp) `prefix_of` key_nibbles k0) by (rewrite Er0, Er, app_assoc; by eexists).
    assert (Kn : ((p ++ cp) ++ [n]) `prefix_of` key_nibbles k) by (rewrite Ek, Erem, app_assoc; apply prefix_snoc_in).
    assert (Ko : ((p ++ cp) ++ [o]) `prefix_of` key_nibbles k0) by (rewrite Er0, Er, app_assoc; apply prefix_snoc_in).
    assert (NKo : ~ ((p ++ cp) ++ [o]) `prefix_of` key_nibbles k) by (eapply (not_prefix_other _ n); [exact Kn|congruence]).
    assert (NKn : ~ ((p ++ cp) ++ [n]) `prefix_of` key_nibbles k0) by (eapply (not_prefix_other _ o); [exact Ko|congruence]).
    assert (UL : forall q, p `prefix_of` q -> forall k1 h1, U q M' !! k1 = Some h1 <->
        q `prefix_of` key_nibbles k1 /\ ((k1 = k /\ h1 = h) \/ (k1 = k0 /\ h1 = h0))).
    { intros q Hq k1 h1. rewrite U_lookup. unfold M'. cbn [apply_vh]. rewrite lookup_insert_Some. split.
      - intros [[[<- <-]|[E1 E2]] Hp]; [split; [done|by left]|]. split; [done|]. right.
        assert (U p M !! k1 = Some h1) as E3 by (apply U_lookup; split; [done|by etransitivity]).
        rewrite EU in E3. apply lookup_singleton_Some in E3 as [<- <-]. done.
      - intros [Hp [[-> ->]|[-> ->]]]; split; try done; [by left|]. right. split; [congruence|done]. }
    assert (UB : forall q, p `prefix_of` q -> q `prefix_of` (p ++ cp) -> U q M' = <[k := h]> {[k0 := h0]}).
    { intros q Hq Hq2. apply map_eq; intros k1; apply option_eq; intros h1. rewrite UL by done.
      rewrite lookup_insert_Some, lookup_singleton_Some. split; [naive_solver|].
      intros [[<- <-]|[E1 [<- <-]]]; (split; [by etransitivity|]); auto. }
    assert (S2 : size (<[k := h]> {[k0 := h0]} : gmap key vhash) = 2).
    { rewrite map_size_insert_None, map_size_singleton; [done|]. by apply lookup_singleton_ne. }
    assert (Un : U ((p ++ cp) ++ [n]) M' = {[ k := h ]}).
    { apply map_eq; intros k1; apply option_eq; intros h1. rewrite UL by (rewrite <- app_assoc; by eexists).
      rewrite lookup_singleton_Some. split; [|intros [<- <-]; auto]. intros [Hp [[-> ->]|[-> ->]]]; [done|]. done. }
    assert (Uo : U ((p ++ cp) ++ [o]) M' = {[ k0 := h0 ]}).
    { apply map_eq; intros k1; apply option_eq; intros h1. rewrite UL by (rewrite <- app_assoc; by eexists).
      rewrite lookup_singleton_Some. split; [|intros [<- <-]; auto]. intros [Hp [[-> ->]|[-> ->]]]; [done|]. done. }
    assert (Ux : forall q x m, p `prefix_of` q -> (q ++ [x]) `prefix_of` (p ++ cp) -> m <> x -> U (q ++ [m]) M' = ∅).
    { intros q x m Hq Hx Hm. apply map_empty. intros k1. destruct (U (q ++ [m]) M' !! k1) eqn:E; [|done]. exfalso.
      apply UL in E as [E1 E2]; [|etransitivity; [exact Hq|by eexists]].
      assert ((q ++ [x]) `prefix_of` key_nibbles k1) as E3 by (etransitivity; [exact Hx|naive_solver]).
      eapply (not_prefix_other q x m []); done. }
    assert (Uy : forall m, m <> n -> m <> o -> U ((p ++ cp) ++ [m]) M' = ∅).
    { intros m M1 M2. apply map_empty. intros k1. destruct (U ((p ++ cp) ++ [m]) M' !! k1) eqn:E; [|done]. exfalso.
      apply UL in E as [E1 E2]; [|rewrite <- app_assoc; by eexists].
      destruct E2 as [[-> _]|[-> _]]; [eapply (not_prefix_other _ n m [])|eapply (not_prefix_other _ o m [])]; done. }
    assert (Vb : forall q, p `prefix_of` q -> q `prefix_of` (p ++ cp) -> size (U q M') = 2 /\ ver' q = v).
    { intros q Hq1 Hq2. split; [by rewrite UB|]. apply upd_prefix. by etransitivity. }
    assert (Vn : ver' ((p ++ cp) ++ [n]) = v) by (by apply upd_prefix).
    assert (Nb : forall q, p `prefix_of` q -> q `prefix_of` (p ++ cp) -> upd true k M nw q = true).
    { intros q Hq1 Hq2. apply upd_prefix. by etransitivity. }
    assert (Nn : upd true k M nw ((p ++ cp) ++ [n]) = true) by (by apply upd_prefix).
    assert (No : upd true k M nw ((p ++ cp) ++ [o]) = true).
    { apply upd_new. rewrite parent_snoc. pose proof (U_app_size p cp M). lia. }
    assert (Vo : ver' ((p ++ cp) ++ [o]) = v).
    { apply upd_new. rewrite parent_snoc. pose proof (U_app_size p cp M). lia. }
    assert (Lv' : forall q, lv p q M' <-> (p `prefix_of` q /\ q `prefix_of` (p ++ cp)) \/ q = (p ++ cp) ++ [n] \/ q = (p ++ cp) ++ [o]).
    { intros q. split.
      - intros (Hq & Ne' & Hpar). destruct (path_cases p q Hq) as [->|(m & r & ->)]; [left; split; [done|by eexists]|].
        destruct Hpar as [Hpar|Hpar].
        { exfalso. rewrite <- (app_nil_r p) in Hpar at 2. by apply app_inv_head in Hpar. }
        assert (Hpp : p `prefix_of` parent (p ++ m :: r)) by (rewrite parent_app by done; by eexists).
        assert (parent (p ++ m :: r) `prefix_of` key_nibbles k /\ parent (p ++ m :: r) `prefix_of` key_nibbles k0) as [P1 P2].
        { apply many_elim in Hpar as (k1 & h1 & k2 & h2 & E1 & E2 & E3).
          apply UL in E1 as [E1 F1]; [|done]. apply UL in E2 as [E2 F2]; [|done].
          destruct F1 as [[-> _]|[-> _]], F2 as [[-> _]|[-> _]]; done. }
        apply map_choose in Ne' as (k1 & h1 & E1). apply UL in E1 as [E1 F1]; [|done].
        (* the parent is a prefix of p ++ cp *)
        assert (PP : parent (p ++ m :: r) `prefix_of` (p ++ cp)).
        { destruct (prefix_weak_total _ _ _ P1 Km) as [W|W]; [done|]. destruct W as [z W]. destruct z as [|y z]; [rewrite app_nil_r in W; by rewrite W|].
          exfalso. rewrite W in P1, P2.
          assert (y = n) as -> by (destruct (decide (y = n)); [done|]; exfalso; by eapply (not_prefix_other _ n y z)).
          by eapply (not_prefix_other _ o n z). }
        assert (Esn : exists x, p ++ m :: r = parent (p ++ m :: r) ++ [x]).
        { apply parent_eq. by destruct p. }
        destruct Esn as [x Ex]. rewrite Ex. destruct PP as [z PP]. destruct z as [|y z].
        + rewrite app_nil_r in PP. rewrite <- PP. right. rewrite Ex, <- PP in E1.
          destruct F1 as [[-> _]|[-> _]]; [left|right]; do 2 f_equal.
          * destruct (decide (x = n)); [done|]. exfalso. by eapply (not_prefix_other _ n x []).
          * destruct (decide (x = o)); [done|]. exfalso. by eapply (not_prefix_other _ o x []).
        + left. rewrite <- Ex. split; [done|]. rewrite Ex, PP. 
          assert (x = y) as ->; [|apply prefix_snoc_in].
          assert (Py : (parent (p ++ m :: r) ++ [y]) `prefix_of` key_nibbles k1).
          { assert (Pz : (parent (p ++ m :: r) ++ [y]) `prefix_of` (p ++ cp)) by (rewrite PP; apply prefix_snoc_in).
            destruct F1 as [[-> _]|[-> _]]; by etransitivity. }
          destruct (decide (x = y)); [done|]. exfalso. rewrite Ex in E1. by eapply (not_prefix_other _ y x []).
      - intros [[Hq1 Hq2]|[->| ->]].
        + split; [done|]. split; [apply size_ne; rewrite UB by done; lia|].
          destruct (path_cases p q Hq1) as [->|(m & r & ->)]; [by left|right].
          rewrite parent_app by done. destruct (Vb (p ++ parent (m :: r))) as [-> _]; [by eexists| |lia].
          etransitivity; [|exact Hq2]. rewrite <- parent_app by done. exists (drop (length (p ++ m :: r) - 1) (p ++ m :: r)).
          unfold parent. by rewrite take_drop.
        + split; [rewrite <- app_assoc; by eexists|]. split; [rewrite Un; apply single_ne|]. right. rewrite parent_snoc.
          destruct (Vb (p ++ cp)) as [-> _]; [by eexists|done|lia].
        + split; [rewrite <- app_assoc; by eexists|]. split; [rewrite Uo; apply single_ne|]. right. rewrite parent_snoc.
          destruct (Vb (p ++ cp)) as [-> _]; [by eexists|done|lia]. }
    assert (Lv : forall q, lv p q M <-> q = p).
    { intros q. rewrite lv_small by lia. split; [by intros [-> _]|]. intros ->. done. }
    assert (Empty1 : forall q, p `prefix_of` q -> tc_nodes c1 !! (v, q) = None).
    { intros q Hq. rewrite D2. apply lookup_delete_None. destruct (decide (ver p = v /\ q = p)) as [[E1 ->]|E1]; [left; congruence|right].
      eapply ginv_nodes_none; [done|done|]. intros (_ & ->%Lv & E2). apply E1. split; [|done]. apply I; [by apply Lv|done]. }
    assert (Lo : node_at H M' ver' ((p ++ cp) ++ [o]) = Leaf (LeafNode k0 h0)) by (by apply node_at_leaf).
    assert (Ln : node_at H M' ver' ((p ++ cp) ++ [n]) = Leaf (LeafNode k h)) by (by apply node_at_leaf).
    destruct (put_ok rd c1 (v, (p ++ cp) ++ [o]) (Leaf (LeafNode k0 h0))) as (c2 & F1 & F2 & F3 & F4 & F5); [|done|].
    { apply Empty1. rewrite <- app_assoc. by eexists. }
    assert (Hno2 : (p ++ cp) ++ [n] <> (p ++ cp) ++ [o]) by (intros E; apply app_inv_head in E; congruence).
    destruct (create_ok rd (v, (p ++ cp) ++ [n]) k h c2) as (c3 & G1 & G2 & G3 & G4 & G5); [|done|].
    { rewrite F2, lookup_insert_ne by congruence. apply Empty1. rewrite <- app_assoc. by eexists. }
    destruct (Vb (p ++ cp)) as [Sb Vbb]; [by eexists|done|].
    assert (Ech : <[n := Child (leaf_hash H (LeafNode k h)) v NTLeaf]> ({[o := Child (leaf_hash H (LeafNode k0 h0)) v NTLeaf]} : gmap nibble child) = children_of H M' ver' (p ++ cp)).
    { apply children_ext. intros m. rewrite children_of_lookup. destruct (decide (m = n)) as [->|Hm1].
      - rewrite lookup_insert. unfold child_of. rewrite Un, map_size_singleton, Vn. by rewrite (ms_single H _ _ k h).
      - rewrite lookup_insert_ne by done. destruct (decide (m = o)) as [->|Hm2].
        + rewrite lookup_singleton. unfold child_of. rewrite Uo, map_size_singleton, Vo. by rewrite (ms_single H _ _ k0 h0).
        + rewrite lookup_singleton_ne by done. symmetry. apply child_of_none. by apply Uy. }
    assert (Inode : node_at H M' ver' (p ++ cp) = Internal (mkInternal (children_of H M' ver' (p ++ cp)) 2)).
    { rewrite node_at_internal by lia. by rewrite Sb. }
    assert (Hlen : forall x, p ++ cp <> (p ++ cp) ++ [x]).
    { intros x E. apply (f_equal length) in E. rewrite !app_length in E. simpl in E. lia. }
    destruct (put_ok rd c3 (v, p ++ cp) (node_at H M' ver' (p ++ cp))) as (c4 & J1 & J2 & J3 & J4 & J5); [|done|].
    { pose proof (Hlen n). pose proof (Hlen o). rewrite G2, lookup_insert_ne, F2, lookup_insert_ne by congruence. apply Empty1. by eexists. }
    destruct (chain_canon M' ver' p cp c4) as (c5 & K1 & K2 & K3 & K4 & K5); [exact Vb|exact Ux| |done|].
    { intros q A1 A2 A3. rewrite J2, lookup_insert_ne by congruence. 
      assert (forall x, (p ++ cp) ++ [x] <> q).
      { intros x <-. apply prefix_length in A2. rewrite !app_length in A2. simpl in A2. lia. }
      pose proof (H0 n). pose proof (H0 o). rewrite G2, lookup_insert_ne, F2, lookup_insert_ne by congruence. by apply Empty1. }
    destruct (Vb p) as [Sp Vp]; [done|by eexists|].
    exists (Updated (v, p) (Internal (mkInternal (children_of H M' ver' p) 2))), (SMProof (Some (LeafNode k0 h0)) []), c5. split.
    { intros wp. rewrite bind_Ok. rewrite D1, bind_Ok. cbn [head unwrap]. rewrite bind_Ok.
      rewrite bool_decide_false by congruence. cbn [negb assert_]. rewrite bind_Ok.
      unfold gen_child. cbn [snd]. rewrite F1, bind_Ok.
      assert (Efull : (p ++ cp) ++ n :: rem2 = key_nibbles k) by (by rewrite Ek, Erem, app_assoc).
      rewrite Efull, G1, bind_Ok. cbn beta iota. cbn [node_hash]. rewrite bind_Ok, Ech, internal_new_canon by lia. rewrite bind_Ok, Sb, <- Inode, J1, bind_Ok.
      rewrite <- Lcp, K1, bind_Ok. done. }
    split; [intros [E _]; done|]. intros _.
    assert (Nodes : forall w q nd, p `prefix_of` q -> tc_nodes c5 !! (w, q) = Some nd <-> w = v /\ lv p q M' /\ nd = node_at H M' ver' q).
    { intros w q nd Hq. rewrite K2, J2, G2, F2, !lookup_insert_Some, Lv'. split.
      - intros [(-> & A1 & A2 & A3 & ->)|[[[= <- <-] <-]|[_ [[[= <- <-] <-]|[_ [[[= <- <-] <-]|[_ A]]]]]]].
        + auto 10.
        + split; [done|]. split; [|done]. left. split; [by eexists|done].
        + rewrite Ln. auto 10.
        + rewrite Lo. auto 10.
        + exfalso. rewrite D2, lookup_delete_Some in A. destruct A as [A1 A2]. apply I in A2 as (-> & ->%Lv & A2 & _); [|done]. apply A1. f_equal. apply I; [by apply Lv|done].
      - intros (-> & [[A1 A2]|[->| ->]] & ->).
        + destruct (decide (q = p ++ cp)) as [->|Hqq]; [by right; left|]. left. auto 10.
        + right. right. split; [pose proof (Hlen n); congruence|]. left. by rewrite Ln.
        + right. right. split; [pose proof (Hlen o); congruence|]. right. split; [congruence|]. left. by rewrite Lo. }
    assert (AllV : forall q, lv p q M' -> ver' q = v).
    { intros q [[A1 A2]|[->| ->]]%Lv'; [by apply Vb|done|done]. }
    assert (AllN : forall q, lv p q M' -> upd true k M nw q = true).
    { intros q [[A1 A2]|[->| ->]]%Lv'; [by apply Nb|done|done]. }
    split_and!; [| | |congruence|done|done].
    + right. split; [apply size_ne; lia|]. rewrite node_at_internal by lia. by rewrite Sp.
    + split_and!.
      * intros w q nd Hq. rewrite Nodes by done. split; [intros (? & ? & ?); auto 10|]. intros (? & ? & ? & ?); auto.
      * intros w q Hq. rewrite K3, J3, G3, F3, D3. destruct I as (I1 & I2 & I3 & I4). rewrite (I2 _ _ Hq), Lv. split.
        -- intros [[E1 E2]|[[= -> ->] E2]].
           ++ split; [done|]. intros (E3 & E4 & _). rewrite AllN in E4 by done. done.
           ++ split; [rewrite I3; [eauto|by apply Lv|done]|]. intros (E3 & E4 & _). rewrite AllN in E4 by done. congruence.
        -- intros [E1 E2]. destruct (decide (q = p /\ nw p = false /\ ver p = w)) as [(-> & E3 & <-)|E3]; [right; done|left].
           split; [done|]. intros (-> & E4 & E5). by apply E3.
      * intros q Hq E. rewrite AllN in E by done. done.
      * intros q Hq _. by apply AllV.
    + intros w q Hq.
      assert (Ho : forall r, p ++ r <> q) by (intros r <-; apply Hq; by eexists).
      split.
      * apply option_eq. intros nd. rewrite K2. split.
        -- intros [(_ & A & _)|A]; [done|]. rewrite J2, G2, F2, D2 in A.
           pose proof (Ho cp). pose proof (Ho (cp ++ [n])) as Ho1. pose proof (Ho (cp ++ [o])) as Ho2. pose proof (Ho []) as Ho3.
           rewrite app_assoc in Ho1, Ho2. rewrite app_nil_r in Ho3.
           rewrite !lookup_insert_ne, lookup_delete_ne in A by congruence. done.
        -- intros A. right. rewrite J2, G2, F2, D2.
           pose proof (Ho cp). pose proof (Ho (cp ++ [n])) as Ho1. pose proof (Ho (cp ++ [o])) as Ho2. pose proof (Ho []) as Ho3.
           rewrite app_assoc in Ho1, Ho2. rewrite app_nil_r in Ho3.
           rewrite !lookup_insert_ne, lookup_delete_ne by congruence. done.
      * rewrite K3, J3, G3, F3, D3. pose proof (Ho []) as Ho3. rewrite app_nil_r in Ho3. naive_solver.
Qed.

End ins.
