(** put, put_set and freeze: one version. *)
From Verif Require Import Base Spec NodeType ProofDef TreeCache Tree KeyFacts SmtFacts ProofFacts NodeFacts Canon CanonSib ReadFacts PutFacts InsertFacts InsertInt InsertInt2.
From Coq Require Import Lia.
Local Opaque Spec.smt.

Global Instance lv_dec p q M : Decision (lv p q M).
Proof. unfold lv. apply _. Defined.
Global Instance noop_dec M k vh : Decision (noop M k vh).
Proof. unfold noop. apply _. Defined.

(** The abstract tree while a version is being written: the map, the version of each live node, and whether
    anything has been written in this version. *)
Record atree : Type := ATree { a_map : gmap key vhash; a_ver : list nibble -> version; a_ch : bool }.
Definition astep (v : version) (a : atree) (w : key * option vhash) : atree :=
  if decide (noop (a_map a) w.1 w.2) then a
  else ATree (apply_vh (a_map a) w.1 w.2) (upd v w.1 (a_map a) (a_ver a)) true.

Section top.
Context (H : list byte -> bytes32).
Implicit Types (M : gmap key vhash) (ver : list nibble -> version) (p q : list nibble).

Definition T0 M ver (nk : nodekey) : option node :=
  if decide (lv [] nk.2 M /\ ver nk.2 = nk.1) then Some (node_at H M ver nk.2) else None.
Lemma T0_is M ver w q : is_Some (T0 M ver (w, q)) <-> lv [] q M /\ ver q = w.
Proof. unfold T0. cbn. case_decide; split; [done|eauto|by intros []|done]. Qed.
Lemma T0_live M ver q : lv [] q M -> T0 M ver (ver q, q) = Some (node_at H M ver q).
Proof. intros L. unfold T0. cbn. by rewrite decide_True. Qed.
Lemma T0_some M ver nk nd : T0 M ver nk = Some nd -> lv [] nk.2 M /\ ver nk.2 = nk.1 /\ nd = node_at H M ver nk.2.
Proof. unfold T0. case_decide; [|done]. intros [= <-]. naive_solver. Qed.

Definition rest2 (c : cache) :=
  (tc_next c, tc_values c, fz_nodes c, fz_values c, fz_stale c, fz_stats c, fz_roots c).
Lemma rest_rest2 c c' : rest c = rest c' -> rest2 c = rest2 c'.
Proof. unfold rest, rest2. congruence. Qed.

(** what the base (reader and frozen part of the cache) must hold when version [v] is written on top of the
    tree of (M0, ver0) with root key (r0, []) *)
Definition BaseOK (rd : reader) (v : version) M0 ver0 (r0 : version) (c : cache) : Prop :=
  (forall q, base rd c (v, q) = None) /\
  (forall q, lv [] q M0 -> ver0 q <> v /\ base rd c (ver0 q, q) = Some (node_at H M0 ver0 q)) /\
  (M0 <> ∅ -> ver0 [] = r0) /\ r0 <> v /\
  (base rd c (r0, []) = Some (node_at H M0 ver0 []) \/ M0 = ∅ /\ base rd c (r0, []) = None).

Definition VInv (rd : reader) (v : version) M0 ver0 (r0 : version) (a : atree) (c : cache) : Prop :=
  let M := a_map a in let ver := a_ver a in
  cnt_ok rd c /\ tc_next c = v /\
  if a_ch a then
    tc_root c = (v, []) /\
    ((M <> ∅ /\ ver [] = v /\ Inv H v (T0 M0 ver0) [] M ver c) \/
     (M = ∅ /\ (tc_nodes c = ∅ \/ tc_nodes c = {[ (v, []) := Null ]}) /\ forall x, x ∈ tc_stale c <-> is_Some (T0 M0 ver0 x)))
  else M = M0 /\ ver = ver0 /\ tc_root c = (r0, []) /\ tc_nodes c = ∅ /\ tc_stale c = ∅.

Lemma inv_ext v T p M ver c c' : tc_nodes c = tc_nodes c' -> tc_stale c = tc_stale c' -> Inv H v T p M ver c -> Inv H v T p M ver c'.
Proof. unfold Inv. by intros -> ->. Qed.
Lemma cnt_ext rd c c' : tc_nodes c = tc_nodes c' -> tc_stale c = tc_stale c' -> tc_new_leaves c = tc_new_leaves c' ->
  tc_stale_leaves c = tc_stale_leaves c' -> base rd c = base rd c' -> cnt_ok rd c -> cnt_ok rd c'.
Proof. unfold cnt_ok. by intros -> -> -> -> ->. Qed.
Lemma base_ok_ext rd v M0 ver0 r0 c c' : base rd c = base rd c' -> BaseOK rd v M0 ver0 r0 c -> BaseOK rd v M0 ver0 r0 c'.
Proof. unfold BaseOK. by intros ->. Qed.
Lemma base_rest2 rd c c' : rest2 c = rest2 c' -> base rd c = base rd c'.
Proof. unfold rest2, base. intros [= _ _ -> _ _ _ _]. done. Qed.

Lemma inv_start v M0 ver0 c : (forall q, lv [] q M0 -> ver0 q <> v) -> tc_nodes c = ∅ -> tc_stale c = ∅ ->
  Inv H v (T0 M0 ver0) [] M0 ver0 c.
Proof.
  intros Hv En Es. split_and!.
  - intros w q nd _. rewrite En, lookup_empty. split; [done|]. intros (_ & L & E & _). by apply Hv in L.
  - intros w q _. rewrite Es, T0_is. split; [by intros ?%elem_of_empty|]. intros [? ?]. done.
  - intros q L _. by apply T0_live.
Qed.
Lemma base0_of rd v M0 ver0 r0 c : BaseOK rd v M0 ver0 r0 c -> Base0 rd v (T0 M0 ver0) c.
Proof.
  intros (_ & B & _) [w q] nd (L & E & ->)%T0_some. cbn in *. subst w. apply B in L as [? ?]. done.
Qed.
Lemma lv_nil_M q M : lv [] q M -> M <> ∅.
Proof. intros (_ & Ne & _) ->. apply Ne. apply map_empty. intros i. apply eq_None_not_Some. intros [h E]. by apply U_lookup in E as [? _]. Qed.

(** an insertion into a non-empty tree *)
Lemma put_nonempty rd v M0 ver0 r0 a c k vh : BaseOK rd v M0 ver0 r0 c -> VInv rd v M0 ver0 r0 a c -> a_map a <> ∅ ->
  exists pf c', (forall wp, put H rd k vh v c wp = Ok (with_pf wp pf, c')) /\
    VInv rd v M0 ver0 r0 (astep v a (k, vh)) c' /\ rest2 c' = rest2 c /\
    (if decide (noop (a_map a) k vh) then pf = SMProof None [] else exists n, term (a_map a) k n /\ pf = hproof H (a_map a) k n).
Proof.
  intros BO V Ne. destruct a as [M ver ch]. cbn [a_map] in *.
  assert (G : exists r, tc_root c = (r, []) /\ ver [] = r /\ Inv H v (T0 M0 ver0) [] M ver c).
  { destruct V as (_ & _ & V). destruct ch; cbn in V.
    - destruct V as [E [(_ & E2 & I)|[? _]]]; [|done]. eauto.
    - destruct V as (-> & -> & E & En & Es). exists r0. split; [done|]. split; [by apply BO|]. apply inv_start; [|done|done].
      intros q L. by apply BO in L as [? _]. }
  destruct G as (r & Er & Evr & I).
  assert (UN : forall M : gmap key vhash, U [] M = M) by (intros; apply U_nil).
  destruct (insert_at_canon H rd v (T0 M0 ver0) M ver k vh (key_nibbles k) [] c) as (res & pf & c1 & F & Pn & Pc);
    [done|by rewrite UN|done|by eapply base0_of|by apply V|].
  unfold astep. cbn [a_map a_ver fst snd]. case_decide as Hn.
  - destruct (Pn Hn) as (-> & -> & ->). eexists _, c. split; [|done]. intros wp. unfold put. by rewrite Er, <- Evr, F, bind_Ok.
  - destruct (Pc Hn) as (Pres & PI & PO & PR & PC & n & Hn' & -> & Sn & Hmany). rewrite !UN in Pres.
    assert (Tn : exists n', term M k n' /\ SMProof (hleaf M k n) (rev (map (hsib H M k) (seq (4 * length (@nil nibble)) (n - 4 * length (@nil nibble))))) = hproof H M k n').
    { exists n. split; [split_and!; [lia|done|intros j Hj; apply Hmany; simpl; lia]|]. unfold hproof, hsibs. cbn [length]. rewrite Nat.mul_0_r, Nat.sub_0_r. done. }
    destruct Pres as [[Z ->]|[Z ->]].
    + assert (En : tc_nodes c1 = ∅).
      { apply map_empty. intros [w q]. apply eq_None_not_Some. intros [nd E]. apply PI in E as (_ & L & _); [|apply prefix_nil].
        by apply lv_nil_M in L. }
      destruct (put_ok rd (cache_set_root c1 (nk_root v)) (nk_root v) Null) as (c2 & P1 & P2 & P3 & P4 & P5).
      { cbn. by rewrite En, lookup_empty. } { by eapply cnt_ext. }
      eexists _, c2. split.
      { intros wp. unfold put. rewrite Er, <- Evr, F, bind_Ok. cbv beta iota zeta. rewrite P1, bind_Ok. done. }
      split; [|split; [|done]].
      * split; [done|]. split.
        { unfold rest in PR, P4. cbn in P4. destruct V as (_ & V & _). congruence. }
        cbn [a_ch a_map a_ver]. split.
        { unfold rest in P4. cbn in P4. by injection P4. }
        right. split; [done|]. split.
        { right. rewrite P2. cbn. rewrite En. done. }
        intros [w q]. rewrite P3. cbn. destruct PI as (_ & PI & _). rewrite PI by apply prefix_nil. split; [by intros [? _]|].
        intros E. split; [done|]. intros [L _]. by apply lv_nil_M in L.
      * apply rest_rest2 in P4. rewrite P4. apply rest_rest2 in PR. rewrite <- PR. done.
    + eexists _, (cache_set_root c1 (v, [])). split.
      { intros wp. unfold put. rewrite Er, <- Evr, F, bind_Ok. done. }
      split; [|split; [by apply rest_rest2 in PR|done]].
      split; [by eapply cnt_ext|]. split; [destruct V as (_ & V & _); unfold rest in PR; cbn; congruence|].
      cbn [a_ch a_map a_ver]. split; [done|]. left. split; [done|]. split; [apply upd_prefix, prefix_nil|]. done.
Qed.

(** an insertion into the empty tree *)
Lemma put_empty rd v M0 ver0 r0 a c k vh : BaseOK rd v M0 ver0 r0 c -> VInv rd v M0 ver0 r0 a c -> a_map a = ∅ ->
  exists pf c', (forall wp, put H rd k vh v c wp = Ok (with_pf wp pf, c')) /\
    VInv rd v M0 ver0 r0 (astep v a (k, vh)) c' /\ rest2 c' = rest2 c /\
    (if decide (noop (a_map a) k vh) then pf = SMProof None [] else exists n, term (a_map a) k n /\ pf = hproof H (a_map a) k n).
Proof.
  intros BO V Z. destruct a as [M ver ch]. cbn [a_map] in *. subst M.
  (* after the Null node is possibly removed *)
  assert (G : exists r c1, tc_root c = (r, []) /\ (forall vh wp, insert_at H rd (key_nibbles k) [] (r, []) v vh c wp =
       match vh with
        | Some vh =>
            '(nk', nd, c) ← create_leaf_node (nk_root v) (key_nibbles k) vh c1;
            Ok (Updated nk' nd, with_pf wp (SMProof None []), c)
        | None => Ok (NotChanged, with_pf wp (SMProof None []), c1)
        end) /\ tc_nodes c1 = ∅ /\ (forall x, x ∈ tc_stale c1 <-> is_Some (T0 M0 ver0 x)) /\ VInv rd v M0 ver0 r0 (ATree ∅ ver ch) c1 /\ rest c1 = rest c /\ cnt_ok rd c1).
  { assert (Ki : exists x l, key_nibbles k = x :: l).
    { pose proof (key_nibbles_length k) as L. destruct (key_nibbles k) as [|x l]; [done|eauto]. }
    destruct Ki as (x & l & Ki).
    assert (W : forall r o (vh : option vhash) wp, cache_node rd c (r, []) = o -> o = None \/ o = Some Null ->
      insert_at H rd (key_nibbles k) [] (r, []) v vh c wp =
        (c ← (if (N.eqb r v) && (match o with Some _ => true | None => false end)
             then cache_delete_node c (r, []) false else Ok c);
        match vh with
        | Some vh =>
            '(nk', nd, c) ← create_leaf_node (nk_root v) (key_nibbles k) vh c;
            Ok (Updated nk' nd, with_pf wp (SMProof None []), c)
        | None => Ok (NotChanged, with_pf wp (SMProof None []), c)
        end)).
    { intros r o vh' wp Eo Ho. rewrite Ki. cbn [insert_at]. rewrite Eo. destruct Ho as [->| ->]; reflexivity. }
    pose proof V as (Vc & Vn & V2). destruct ch; cbn in V2.
    - destruct V2 as [Er [[? _]|(_ & [En|En] & Es)]]; [done| |].
      + exists v, c. split; [done|]. split; [|done]. intros vh' wp. rewrite (W v None vh' wp); [by rewrite andb_false_r, bind_Ok| |by left].
        rewrite cache_node_out by (by rewrite En). apply BO.
      + destruct (delete_ok rd c (v, []) Null) as (c1 & D1 & D2 & D3 & D4 & D5).
        { apply cache_node_in. rewrite En. apply lookup_singleton. } { rewrite En. intros Y. by rewrite lookup_singleton in Y. } { done. }
        assert (En1 : tc_nodes c1 = ∅) by (by rewrite D2, En, delete_singleton).
        assert (Es1 : forall x, x ∈ tc_stale c1 <-> is_Some (T0 M0 ver0 x)).
        { intros y. rewrite D3, Es, En, lookup_singleton. naive_solver. }
        exists v, c1. split; [done|]. split; [|split; [done|split; [done|split; [|done]]]].
        * intros vh' wp. rewrite (W v (Some Null) vh' wp); [|apply cache_node_in; rewrite En; apply lookup_singleton|by right].
          rewrite N.eqb_refl. cbn [andb]. cbn [node_is_leaf] in D1. rewrite D1, bind_Ok. done.
        * split; [done|]. split; [unfold rest in D4; cbn; congruence|]. cbn. split; [unfold rest in D4; congruence|]. right. eauto.
    - destruct V2 as (<- & -> & Er & En & Es). exists r0, c. split; [done|].
      assert (Es1 : forall x, x ∈ tc_stale c <-> is_Some (T0 ∅ ver0 x)).
      { intros [w q]. rewrite Es, T0_is. split; [by intros ?%elem_of_empty|]. intros [L _]. by apply lv_nil_M in L. }
      split; [|done]. destruct BO as (_ & _ & _ & Hr & Br). intros vh' wp.
      rewrite (W r0 (cache_node rd c (r0, [])) vh' wp); [|done|].
      + replace (r0 =? v)%N with false by (symmetry; by apply N.eqb_neq). reflexivity.
      + rewrite cache_node_out by (by rewrite En). destruct Br as [Br|[_ Br]]; [|by left]. right. rewrite Br, node_at_null; [done|apply U_nil]. }
  destruct G as (r & c1 & Er & G & En & Es & V1 & R1 & C1).
  unfold astep. cbn [a_map a_ver fst snd]. case_decide as Hn.
  - destruct Hn as [-> _]. eexists _, c1. split; [|split; [done|split; [by apply rest_rest2|done]]].
    intros wp. unfold put. rewrite Er, G, bind_Ok. done.
  - destruct vh as [h|]; [|exfalso; by apply Hn].
    destruct (create_ok rd (v, []) k h c1) as (c2 & F1 & F2 & F3 & F4 & F5); [by rewrite En|done|].
    eexists _, (cache_set_root c2 (v, [])). split.
    { intros wp. unfold put. rewrite Er, G. unfold nk_root. rewrite F1, !bind_Ok. done. }
    split; [|split].
    + split; [by eapply cnt_ext|]. split.
      { destruct V1 as (_ & Vn & _). unfold rest in F4. cbn. congruence. }
      cbn [a_ch a_map a_ver apply_vh]. split; [done|]. left. split; [apply insert_non_empty|]. split; [apply upd_prefix, prefix_nil|].
      assert (UE : U [] (<[k := h]> (∅ : gmap key vhash)) = {[ k := h ]}) by (by rewrite U_nil).
      assert (Vp : upd v k ∅ ver [] = v) by (apply upd_prefix, prefix_nil).
      assert (Lv : forall q, lv [] q (<[k := h]> ∅) <-> q = []).
      { intros q. rewrite lv_small; rewrite UE, ?map_size_singleton; [|lia]. split; [by intros [? _]|]. intros ->. split; [done|]. apply single_ne. }
      assert (Nd : node_at H (<[k := h]> ∅) (upd v k ∅ ver) [] = Leaf (LeafNode k h)) by (by apply node_at_leaf).
      split_and!.
      * intros w q nd _. cbn [cache_set_root tc_nodes]. rewrite F2, En, lookup_insert_Some, Lv, lookup_empty. split.
        -- intros [[[= <- <-] <-]|[_ ?]]; [|done]. by rewrite Vp, Nd.
        -- intros (-> & -> & _ & ->). left. by rewrite Nd.
      * intros w q _. cbn [cache_set_root tc_stale]. rewrite F3, Es, Lv. split; [|by intros [? _]]. intros E. split; [done|].
        intros [-> E2]. rewrite Vp in E2. subst w. destruct E as [nd E]. apply (base0_of rd v M0 ver0 r0 c BO) in E as [E _]. done.
      * intros q ->%Lv. done.
    + apply rest_rest2 in F4, R1. rewrite <- R1, <- F4. done.
    + exists 0. split; [|unfold hproof; rewrite hleaf_empty; [done|]; unfold kpre; simpl; by rewrite under_nil].
      split; [lia|]. split; [|lia]. unfold kpre. simpl. rewrite under_nil, map_size_empty. lia.
Qed.

Lemma put_canon rd v M0 ver0 r0 a c k vh : BaseOK rd v M0 ver0 r0 c -> VInv rd v M0 ver0 r0 a c ->
  exists pf c', (forall wp, put H rd k vh v c wp = Ok (with_pf wp pf, c')) /\
    VInv rd v M0 ver0 r0 (astep v a (k, vh)) c' /\ rest2 c' = rest2 c /\
    (if decide (noop (a_map a) k vh) then pf = SMProof None [] else exists n, term (a_map a) k n /\ pf = hproof H (a_map a) k n).
Proof.
  intros BO V. destruct (decide (a_map a = ∅)) as [Z|Z]; [by apply put_empty|by apply put_nonempty].
Qed.
End top.
