(** The batch algorithm: inserting a batch into an existing subtree (tree.rs:122-224). *)
From Verif Require Import Base Spec SpecOrder NodeType ProofDef TreeCache Tree NibbleRange BatchTree KeyFacts SmtFacts ProofFacts NodeFacts Canon CanonSib ReadFacts PutFacts InsertFacts InsertInt KeyOrder OrderFacts NibblePath ThmNode ThmNibble ThmNibbleRange BatchFacts BatchLeaf.
From Coq Require Import Lia.
Local Opaque Spec.smt.

(** the versions after a batch [K] is written at version [v] *)
Definition updK (v : version) (K M : gmap key vhash) (ver : list nibble -> version) (q : list nibble) : version :=
  if decide (U q K = ∅) then (if decide (2 <= size (U (parent q) M)) then ver q else v) else v.
Lemma updK_in v K M ver q : U q K <> ∅ -> updK v K M ver q = v.
Proof. intros. unfold updK. by rewrite decide_False. Qed.
Lemma updK_other v K M ver q : U q K = ∅ -> 2 <= size (U (parent q) M) -> updK v K M ver q = ver q.
Proof. intros. unfold updK. by rewrite !decide_True. Qed.
Lemma updK_new v K M ver q : ~ 2 <= size (U (parent q) M) -> updK v K M ver q = v.
Proof. intros. unfold updK. destruct (decide _); [|done]. by rewrite decide_False. Qed.

Lemma U_empty {A} p : U p (∅ : gmap key A) = ∅.
Proof. apply map_empty. intros k. apply eq_None_not_Some. intros [x E]. by apply U_lookup in E as [? _]. Qed.
Section ins.
Context (H : list byte -> bytes32) (rd : reader) (v : version) (T0 : nodekey -> option node).
Notation Inv := (Inv H v T0).
Notation Base0 := (Base0 rd v T0).
Notation cv := (cv v).
Implicit Types (M K : gmap key vhash) (p q : list nibble).

(** nothing of the subtree is left: the cache has no node of it and everything that was there is stale *)
Definition wiped p (c : cache) : Prop :=
  forall w q, p `prefix_of` q -> tc_nodes c !! (w, q) = None /\ ((w, q) ∈ tc_stale c <-> is_Some (T0 (w, q))).
Lemma T0_old c w q : Base0 c -> is_Some (T0 (w, q)) -> w <> v.
Proof. intros B [nd E]. by apply B in E as [? _]. Qed.
Lemma lv_ext p q M M' : p `prefix_of` q -> (forall q, p `prefix_of` q -> U q M = U q M') -> lv p q M <-> lv p q M'.
Proof.
  intros Hq E. unfold lv. rewrite <- (E q) by done. destruct (path_cases p q Hq) as [->|(n & r & ->)]; [naive_solver|]. rewrite <- (E (parent _)); [done|].
  rewrite parent_app by done. by eexists.
Qed.
Lemma built_inv p M ver c0 c c' m : Base0 c0 -> wiped p c -> built H rd v p m c c' -> (forall q, p `prefix_of` q -> U q m = U q M) ->
  (forall q, lv p q M -> ver q = v) -> Inv p M ver c'.
Proof.
  intros B W [Bt (F1 & F2 & _ & _)] Em Ev.
  assert (En : forall q, p `prefix_of` q -> node_at H m cv q = node_at H M ver q).
  { intros q Hq. apply node_at_ext; [by apply Em|]. intros Hm n Ne. symmetry. apply Ev. assert (p `prefix_of` (q ++ [n])) as Hn by (by apply prefix_app_r).
    split; [done|]. split; [by rewrite <- Em|]. right. rewrite parent_snoc. by rewrite <- Em. }
  split; [|split].
  - intros w q nd Hq. rewrite Bt by done. rewrite (lv_ext p q m M Hq Em), (En q Hq). split; [intros (-> & L & ->)|intros (-> & L & _ & ->)]; [|done]. split_and!; [done|done|by apply Ev|done].
  - intros w q Hq. rewrite F2. destruct (W w q Hq) as [_ ->]. split; [|by intros [? _]]. intros S. split; [done|]. intros [L E]. rewrite Ev in E by done. by apply (T0_old _ _ _ B) in S.
  - intros q L N. exfalso. by apply N, Ev.
Qed.
Lemma inv_empty_wiped p M ver c : Inv p M ver c -> U p M = ∅ -> wiped p c.
Proof.
  intros I E w q Hq. assert (L : ~ lv p q M). { intros (_ & Ne & _). destruct Hq as [r ->]. by apply U_app_ne in Ne. }
  split; [eapply inv_nodes_none; [done|done|naive_solver]|]. destruct I as (_ & I2 & _). rewrite I2 by done. naive_solver.
Qed.
Lemma inv_leaf_wiped p M ver c c' k h : Inv p M ver c -> Base0 c -> U p M = {[ k := h ]} ->
  tc_nodes c' = delete (ver p, p) (tc_nodes c) ->
  (forall x, x ∈ tc_stale c' <-> x ∈ tc_stale c \/ (x = (ver p, p) /\ ver p <> v)) -> wiped p c'.
Proof.
  intros I B E E1 E2 w q Hq. assert (Sm : size (U p M) <= 1) by (by rewrite E, map_size_singleton).
  assert (Lp : lv p p M) by (apply lv_self; rewrite E; apply single_ne).
  split.
  - rewrite E1. apply lookup_delete_None. destruct (decide ((ver p, p) = (w, q))) as [|N]; [by left|right].
    eapply inv_nodes_none; [done|done|]. intros (-> & L & Ev). apply (lv_small p q M Sm) in L as [-> _]. congruence.
  - rewrite E2. destruct I as (_ & I2 & I3). rewrite I2 by done. split.
    + intros [[? _]|[[= -> ->] N]]; [done|]. by rewrite I3.
    + intros S. destruct (decide (lv p q M /\ ver q = w)) as [[L Ev]|]; [right|by left]. apply (lv_small p q M Sm) in L as [-> _]. subst w. split; [done|]. by apply (T0_old _ _ _ B) in S.
Qed.
(** the invariant of a subtree depends on the part of the map and of the versions there *)
Lemma inv_change p M M' ver ver' c : (forall q, p `prefix_of` q -> U q M = U q M') -> (forall q, lv p q M -> ver q = ver' q) -> Inv p M ver c -> Inv p M' ver' c.
Proof.
  intros Em Ev (I1 & I2 & I3).
  assert (En : forall q, p `prefix_of` q -> node_at H M ver q = node_at H M' ver' q).
  { intros q Hq. apply node_at_ext; [by apply Em|]. intros Hm n Ne. apply Ev. split; [by apply prefix_app_r|]. split; [done|]. right. by rewrite parent_snoc. }
  split; [|split].
  - intros w q nd Hq. rewrite I1 by done. rewrite (lv_ext p q M M' Hq Em), (En q Hq). split; intros (-> & L & E & ->); (split_and!; [done|done| |done]); [rewrite <- Ev|rewrite Ev]; try done; by apply (lv_ext p q M M' Hq Em).
  - intros w q Hq. rewrite I2 by done. assert (X : lv p q M /\ ver q = w <-> lv p q M' /\ ver' q = w); [|by rewrite X].
    rewrite (lv_ext p q M M' Hq Em). split; intros [L <-]; (split; [done|]); [symmetry|]; apply Ev; by apply (lv_ext p q M M' Hq Em).
  - intros q L N. pose proof L as (Hq & _). apply (lv_ext p q M M' Hq Em) in L. rewrite <- Ev in N |- * by done. rewrite <- En by done. by apply I3.
Qed.
Lemma inv_frame p n n' M ver c c' : outside (p ++ [n]) c c' -> n' <> n -> Inv (p ++ [n']) M ver c -> Inv (p ++ [n']) M ver c'.
Proof.
  intros O N (I1 & I2 & I3).
  assert (X : forall q, (p ++ [n']) `prefix_of` q -> ~ (p ++ [n]) `prefix_of` q) by (intros q A A'; by pose proof (prefix_two _ _ _ _ A A')).
  split; [|split; [|done]]; intros w q; intros; destruct (O w q) as [E1 E2]; try (by apply X); [rewrite E1; by apply I1|rewrite E2; by apply I2].
Qed.
(** the node above its subtrees *)
Lemma inv_join p M ver c : Base0 c -> 2 <= size (U p M) -> ver p = v -> (forall n, Inv (p ++ [n]) M ver c) ->
  (forall w, tc_nodes c !! (w, p) = None /\ ((w, p) ∈ tc_stale c <-> is_Some (T0 (w, p)))) ->
  forall c', tc_nodes c' = <[(v, p) := node_at H M ver p]> (tc_nodes c) -> tc_stale c' = tc_stale c -> Inv p M ver c'.
Proof.
  intros B Hm Vp Is Ip c' En Es.
  assert (Lp : lv p p M) by (by apply lv_self, U_many_ne).
  split; [|split].
  - intros w q nd Hq. rewrite En. destruct (path_cases p q Hq) as [->|(n & r & ->)].
    + split.
      * intros [[[= <-] <-]|[_ E]]%lookup_insert_Some; [done|]. destruct (Ip w) as [X _]. congruence.
      * intros (-> & _ & _ & ->). by rewrite lookup_insert.
    + rewrite lookup_insert_ne by (intros [= _ X]; apply (f_equal length) in X; rewrite app_length in X; cbn in X; lia).
      assert (Hn : (p ++ [n]) `prefix_of` (p ++ n :: r)) by apply prefix_snoc_in. destruct (Is n) as (I1 & _). rewrite I1 by done. by rewrite (lv_child p n _ M Hm Hn).
  - intros w q Hq. rewrite Es. destruct (path_cases p q Hq) as [->|(n & r & ->)].
    + destruct (Ip w) as [_ ->]. split; [|by intros [? _]]. intros S. split; [done|]. intros [_ E]. rewrite Vp in E. by apply (T0_old _ _ _ B) in S.
    + assert (Hn : (p ++ [n]) `prefix_of` (p ++ n :: r)) by apply prefix_snoc_in. destruct (Is n) as (_ & I2 & _). rewrite I2 by done. by rewrite (lv_child p n _ M Hm Hn).
  - intros q L N. pose proof L as (Hq & _). destruct (path_cases p q Hq) as [->|(n & r & ->)]; [done|].
    assert (Hn : (p ++ [n]) `prefix_of` (p ++ n :: r)) by apply prefix_snoc_in. destruct (Is n) as (_ & _ & I3). apply I3; [|done]. by apply (lv_child p n _ M Hm Hn).
Qed.
Lemma framed_outside p c c' : framed rd p c c' -> outside p c c'.
Proof. intros (F1 & F2 & _) w q Hq. rewrite F2. split; [by apply F1|done]. Qed.
Lemma outside_trans p c c1 c2 : outside p c c1 -> outside p c1 c2 -> outside p c c2.
Proof. intros A B w q Hq. destruct (A w q Hq) as [A1 A2], (B w q Hq) as [B1 B2]. split; [congruence|]. by rewrite B2. Qed.
Lemma outside_sub p n c c' : outside (p ++ [n]) c c' -> outside p c c'.
Proof. intros A w q Hq. apply A. intros X. apply Hq. by eapply prefix_app_l. Qed.
Lemma delete_outside p w0 c c' (P : Prop) : tc_nodes c' = delete (w0, p) (tc_nodes c) ->
  (forall x, x ∈ tc_stale c' <-> x ∈ tc_stale c \/ (x = (w0, p) /\ P)) -> outside p c c'.
Proof.
  intros E1 E2 w q Hq. assert ((w0, p) <> (w, q)) by (intros [= _ <-]; by apply Hq). rewrite E1, lookup_delete_ne by done. split; [done|]. rewrite E2. naive_solver.
Qed.

Lemma hc_ext hc p m m' K : (forall q, p `prefix_of` q -> U q m = U q m') -> hc_good H hc p m K -> hc_good H hc p m' K.
Proof.
  intros E. destruct hc as [t|]; [|done]. intros G q Hq Nq Ne Hs. destruct (path_cases p q Hq) as [->|(n & r & ->)]; [done|].
  assert (Hp : p `prefix_of` parent (p ++ n :: r)) by (rewrite parent_app by done; by eexists). rewrite G; [|done|done|done|by rewrite E].
  f_equal. unfold ms. pose proof (E _ Hq) as X. unfold U in X. by rewrite X.
Qed.

Lemma insert_leaf_ok (K M M' : gmap key vhash) ver ver' lk lh rem p hc c : M' = K ∪ M -> ver' = updK v K M ver ->
  length p + rem = 64 -> U p K <> ∅ -> U p M = {[ lk := lh ]} -> Inv p M ver c -> Base0 c -> cnt_ok rd c -> hc_good H hc p M' K ->
  exists c1 c', cache_delete_node c (ver p, p) true = Ok c1 /\
    batch_create_with_leaf H rem (v, p) v (LeafNode lk lh) (entries (U p K)) (length p) hc c1 = Ok (v, p, node_at H M' ver' p, c') /\
    Inv p M' ver' c' /\ outside p c c' /\ rest c' = rest c /\ cnt_ok rd c'.
Proof.
  intros Em Ev Lr Nk E Hi B C G.
  assert (En : node_at H M ver p = Leaf (LeafNode lk lh)) by (by apply node_at_leaf).
  assert (Nm : U p M <> ∅) by (rewrite E; apply single_ne).
  assert (Vp : ver' p = v) by (rewrite Ev; by apply updK_in).
  destruct (inv_delete H rd v T0 p M ver c true Hi B C Nm) as (c1 & D1 & D2 & D3 & D4 & D5); [by rewrite En|].
  assert (W : wiped p c1) by (by eapply inv_leaf_wiped).
  assert (Hlk : p `prefix_of` key_nibbles lk) by (assert (X : U p M !! lk = Some lh) by (rewrite E; by rewrite lookup_singleton); by apply U_lookup in X as [_ ?]).
  assert (Uq : forall q, p `prefix_of` q -> U q (K ∪ {[lk := lh]}) = U q M').
  { intros q [r ->]. rewrite Em, !U_union. f_equal. rewrite (U_again p r M), (U_again p r {[lk := lh]}). by rewrite E, U_single_in. }
  assert (Vq : forall q, lv p q M' -> ver' q = v).
  { intros q L. pose proof L as (Hq & _). destruct (path_cases p q Hq) as [->|(n & r & ->)]; [done|]. rewrite Ev. apply updK_new.
    rewrite parent_app by done. intros X. apply U_many_up in X. rewrite E, map_size_singleton in X. lia. }
  destruct (with_leaf_ok H rd v K lk lh _ eq_refl rem p hc c1) as (c' & X1 & X2); [done|done|done|intros w q Hq; by apply W|done| |].
  { eapply hc_ext; [|exact G]. intros q Hq. symmetry. by apply Uq. }
  exists c1, c'. split; [done|]. split.
  - rewrite X1. f_equal. f_equal. f_equal. apply node_at_ext; [by apply Uq|]. intros Hs n Ne. symmetry. apply Vq. split; [by apply prefix_app_r|]. split; [rewrite <- Uq; [done|by apply prefix_app_r]|].
    right. rewrite parent_snoc. by rewrite <- Uq.
  - split; [by eapply built_inv|]. destruct X2 as [_ F]. split; [|destruct F as (_ & _ & F3 & F4); split; [congruence|done]].
    eapply outside_trans; [by eapply delete_outside|by apply framed_outside].
Qed.

Lemma insert_at_ok (K M M' : gmap key vhash) ver ver' : M' = K ∪ M -> ver' = updK v K M ver ->
  forall rem p hc c, length p + rem = 64 -> U p K <> ∅ -> U p M <> ∅ -> Inv p M ver c -> Base0 c -> cnt_ok rd c -> hc_good H hc p M' K ->
  exists c', batch_insert_at H rd rem (ver p, p) v (entries (U p K)) (length p) hc c = Ok (v, p, node_at H M' ver' p, c') /\
    Inv p M' ver' c' /\ outside p c c' /\ rest c' = rest c /\ cnt_ok rd c'.
Proof.
  intros Em Ev. induction rem as [|rem IH]; intros p hc c Lr Nk Nm Hi B C G.
  all: assert (Vp : ver' p = v) by (rewrite Ev; by apply updK_in).
  all: assert (Rp : cache_get_node rd c (ver p, p) = Ok (node_at H M ver p)) by
    (unfold cache_get_node; rewrite (inv_read H rd v T0 p M ver c p) by (done || by apply lv_self); done).
  all: assert (As : assert_ (match entries (U p K) with [] => false | _ => true end) = Ok tt) by
    (rewrite <- entries_nil in Nk; destruct (entries (U p K)); done).
  all: destruct (size_cases (U p M)) as [E|[(lk & lh & E)|Hm]]; [done| |].
  1, 3: destruct (insert_leaf_ok K M M' ver ver' lk lh _ p hc c Em Ev Lr Nk E Hi B C G) as (c1 & c' & D & X & R); exists c'; split; [|done];
    cbn [batch_insert_at]; rewrite As, bind_Ok, Rp, bind_Ok, (node_at_leaf H _ _ _ lk lh) by done; cbv beta iota; rewrite D, bind_Ok; exact X.
  { exfalso. apply U_many_len in Hm. lia. }
  pose proof (U_many_len _ _ Hm) as Lp.
  assert (Hm' : 2 <= size (U p M')).
  { etransitivity; [exact Hm|]. rewrite Em, U_union. assert (X : dom (U p M) ⊆ dom (U p K ∪ U p M)) by set_solver. rewrite <- !size_dom. by apply subseteq_size. }
  destruct (inv_delete H rd v T0 p M ver c false Hi B C Nm) as (c0 & D1 & D2 & D3 & D4 & D5); [by rewrite node_at_internal|].
  cbn [batch_insert_at]. rewrite As, bind_Ok, Rp, bind_Ok, node_at_internal by done. cbv beta iota. rewrite D1, bind_Ok. cbn [in_children].
  set (body := fun n sub (flag : bool) c => _).
  pose (I := fun (dn : list group) (ch : children) (fl : bool) (c1 : cache) =>
     (forall n, n ∈ dn.*1 -> Inv (p ++ [n]) M' ver' c1 /\ ch !! n = child_of H M' ver' p n) /\
     (forall n, n ∉ dn.*1 -> Inv (p ++ [n]) M ver c1 /\ ch !! n = child_of H M ver p n) /\
     (forall w, tc_nodes c1 !! (w, p) = None /\ ((w, p) ∈ tc_stale c1 <-> is_Some (T0 (w, p)))) /\
     outside p c c1 /\ rest c1 = rest c /\ cnt_ok rd c1).
  pose proof (sorted_nodup _ (gs_sorted p K)) as ND.
  destruct (loop_groups H v (entries (U p K)) (length p) hc body I (gs_of p K) (children_of H M ver p) c0 false Lp (gs_grouped p K Lp)) as (rs & ch & fl & c1 & R1 & R2 & J1 & J2 & J3 & J4 & J5 & J6).
  - intros dn n g todo ch fl c1 Eg (J1 & J2 & J3 & J4 & J5 & J6). assert (Hn : n ∉ dn.*1) by (by eapply not_in_done).
    assert (Ig : (n, g) ∈ gs_of p K) by (rewrite Eg; apply elem_of_app; right; by left). apply gs_elem in Ig as [Nn ->].
    assert (Nn' : U (p ++ [n]) M' <> ∅) by (rewrite Em; by apply U_union_ne).
    assert (B1 : Base0 c1) by (by eapply base0_rest).
    destruct (J2 n Hn) as [In Cn].
    destruct (node_type_canon H M' ver' p n Nn') as (t & Et & Ec).
    assert (Vn : ver' (p ++ [n]) = v) by (rewrite Ev; by apply updK_in).
    assert (exists c2, body n (entries (U (p ++ [n]) K)) fl c1 = Ok (v, p ++ [n], node_at H M' ver' (p ++ [n]), fl, c2) /\
      Inv (p ++ [n]) M' ver' c2 /\ outside (p ++ [n]) c1 c2 /\ rest c2 = rest c1 /\ cnt_ok rd c2) as (c2 & E2 & I2 & O2 & S2 & C2).
    { unfold body, gen_child, in_child. cbn [snd in_children]. rewrite children_of_lookup. destruct (decide (U (p ++ [n]) M = ∅)) as [Z|Z].
      - rewrite (proj2 (child_of_none H M ver p n)) by done. cbv iota.
        destruct (create_subtree_ok H rd v M' rem (p ++ [n]) hc c1) as (c2 & E2 & B2); [rewrite app_length; cbn; lia|done| |done| |].
        2: { eapply hc_shrink; [|by apply hc_sub]. intros q [r ->]. rewrite Em, U_union, (U_again (p ++ [n]) r M), Z. rewrite U_empty. apply (right_id_L ∅ (∪)). }
        { intros w q Hq. by apply (inv_empty_wiped _ _ _ _ In Z). }
        assert (Vq : forall q, lv (p ++ [n]) q M' -> ver' q = v).
        { intros q L. pose proof L as (Hq & _). destruct (path_cases _ q Hq) as [->|(n' & r & ->)]; [done|]. rewrite Ev. apply updK_new.
          rewrite parent_app by done. intros X. apply U_many_up in X. rewrite Z, map_size_empty in X. lia. }
        exists c2. split; [|split; [|split; [|]]].
        + assert (Ek : U (p ++ [n]) M' = U (p ++ [n]) K) by (rewrite Em, U_union, Z; apply (right_id_L ∅ (∪))).
          rewrite app_length, Nat.add_1_r, Ek in E2. rewrite E2, bind_Ok, (node_at_ext H M' M' cv ver' (p ++ [n])); [done|done|]. intros Hs n' Ne. symmetry. apply Vq.
          split; [by eexists|]. split; [done|]. right. by rewrite parent_snoc.
        + eapply built_inv; [exact B1|by eapply inv_empty_wiped|done|done|done].
        + apply framed_outside, B2.
        + destruct B2 as [_ (_ & _ & F3 & F4)]. done.
      - destruct (child_of_some H M ver p n Z) as (ci & Eci & _ & Evi & _). rewrite Eci. cbv iota. rewrite Evi.
        destruct (IH (p ++ [n]) hc c1) as (c2 & E2 & X); [rewrite app_length; cbn; lia|done|done|done|done|done|by apply hc_sub|].
        rewrite app_length, Nat.add_1_r in E2. exists c2. rewrite E2, bind_Ok. done. }
    exists (v, p ++ [n]), (node_at H M' ver' (p ++ [n])), fl, c2, (ms H (bits (p ++ [n])) M'), t. split; [done|]. split; [by eapply hc_get|]. split; [done|].
    unfold I. rewrite fmap_app. cbn [fmap list_fmap fst]. split_and!.
    + intros n' Hn'. destruct (decide (n' = n)) as [->|N]; [rewrite lookup_insert, Ec, Vn; done|]. rewrite lookup_insert_ne by done.
      apply elem_of_app in Hn' as [Hn'|?%elem_of_list_singleton]; [|done]. destruct (J1 n' Hn') as [? ?]. split; [by eapply inv_frame|done].
    + intros n' Hn'. rewrite not_elem_of_app, elem_of_list_singleton in Hn'. destruct Hn' as [Hn' N]. rewrite lookup_insert_ne by done. destruct (J2 n' Hn') as [? ?]. split; [by eapply inv_frame|done].
    + intros w. destruct (O2 w p) as [-> ->]; [apply prefix_snoc_self|]. apply J3.
    + eapply outside_trans; [exact J4|]. by eapply outside_sub.
    + congruence.
    + done.
  - unfold I. cbn [fmap list_fmap]. split_and!.
    + intros n X. by apply elem_of_nil in X.
    + intros n _. split; [|apply children_of_lookup]. assert (X : Inv (p ++ [n]) M ver c) by (by apply inv_sub).
      destruct X as (X1 & X2 & X3). assert (Q : forall w q, (p ++ [n]) `prefix_of` q -> (ver p, p) <> (w, q)) by (intros w q Hq [= _ <-]; by apply prefix_snoc_self in Hq).
      split; [|split; [|done]].
      * intros w q nd Hq. rewrite D2, lookup_delete_ne by (by apply Q). by apply X1.
      * intros w q Hq. rewrite D3, <- X2 by done. pose proof (Q w q Hq). naive_solver.
    + intros w. rewrite D2. pose proof Hi as (I1 & I2 & I3). assert (Lpp : lv p p M) by (by apply lv_self). split.
      * apply lookup_delete_None. destruct (decide (ver p = w)) as [->|N]; [by left|right]. eapply inv_nodes_none; [done|done|naive_solver].
      * rewrite D3, I2 by done. split.
        -- intros [[? _]|[[= ->] N]]; [done|]. by rewrite I3.
        -- intros S. destruct (decide (ver p = w)) as [<-|N]; [right|left; naive_solver]. split; [done|]. by apply (T0_old _ _ _ B) in S.
    + by eapply delete_outside.
    + done.
    + done.
  - rewrite R1, bind_Ok, R2, bind_Ok. cbv beta iota zeta.
    assert (Eu : forall n, n ∉ (gs_of p K).*1 -> U (p ++ [n]) K = ∅).
    { intros n Hn. destruct (decide (U (p ++ [n]) K = ∅)) as [|X]; [done|]. exfalso. by apply Hn, gs_fst. }
    assert (Uq : forall n q, n ∉ (gs_of p K).*1 -> (p ++ [n]) `prefix_of` q -> U q M = U q M').
    { intros n q Hn [r ->]. rewrite Em, U_union. assert (X : U ((p ++ [n]) ++ r) K = ∅); [|by rewrite X, (left_id_L ∅ (∪))].
      destruct (decide (U ((p ++ [n]) ++ r) K = ∅)) as [|X]; [done|]. exfalso. apply U_app_ne in X. by apply X, Eu. }
    assert (Vq : forall n q, n ∉ (gs_of p K).*1 -> lv (p ++ [n]) q M -> ver q = ver' q).
    { intros n q Hn L. pose proof L as (Hq & _ & Cq). rewrite Ev. symmetry. apply updK_other.
      - destruct Hq as [r ->]. destruct (decide (U ((p ++ [n]) ++ r) K = ∅)) as [|X]; [done|]. exfalso. apply U_app_ne in X. by apply X, Eu.
      - destruct Cq as [->|?]; [|done]. by rewrite parent_snoc. }
    assert (Ech : ch = children_of H M' ver' p).
    { apply children_ext. intros n. rewrite children_of_lookup. destruct (decide (n ∈ (gs_of p K).*1)) as [Hn|Hn]; [by apply J1|].
      destruct (J2 n Hn) as [_ ->]. unfold child_of. rewrite <- (Uq n) by done. unfold ms. destruct (decide (U (p ++ [n]) M = ∅)) as [Z|Z]; [by rewrite Z, map_size_empty|].
      assert (X : U (p ++ [n]) M = U (p ++ [n]) M') by (by apply (Uq n)). unfold U in X. rewrite X. rewrite (Vq n (p ++ [n])); [done|done|by apply lv_self]. }
    subst ch. rewrite internal_new_canon, bind_Ok by done. unfold nk_set_version. cbn [snd].
    destruct (put_ok rd c1 (v, p) (node_at H M' ver' p)) as (c' & P1 & P2 & P3 & P4 & P5); [apply J3|done|].
    rewrite node_at_internal in P1 |- * by done. rewrite P1, bind_Ok. exists c'. split; [done|].
    assert (B1 : Base0 c1) by (by eapply base0_rest).
    split; [|split; [|split; [congruence|done]]].
    + eapply (inv_join p M' ver' c1 B1 Hm' Vp); [|exact J3|exact P2|exact P3]. intros n. destruct (decide (n ∈ (gs_of p K).*1)) as [Hn|Hn]; [by apply J1|].
      destruct (J2 n Hn) as [X _]. eapply inv_change; [|intros q L; by eapply (Vq n)|exact X]. intros q Hq. by apply (Uq n).
    + eapply outside_trans; [exact J4|]. intros w q Hq. rewrite P2, P3, lookup_insert_ne; [done|]. intros [= _ <-]. by apply Hq.
Qed.
End ins.
