(** C90: values may be pruned too. A store that deletes, when it is pruned up to a version, also values that no version from that one on needs, still answers every query about every
    readable version: no read of such a version, not even the iterator's reads at the versions of leaf nodes, which lie below, needs a value record that has been superseded. *)
From Coq Require Import Strings.String.
From Verif Require CommitMono ThmVersions.
From Verif Require Import Base Spec SpecOrder NodeType ProofDef TreeCache Tree BatchTree Mock Driver Iterator Exclusion KeyFacts SmtFacts ProofFacts NodeFacts Canon CanonSib ReadFacts PutFacts InsertFacts PutTop VersionFacts ValueFacts StoreFacts DriverFacts DriverFacts2 LeafVersion KeyOrder OrderFacts IterFacts ExclFacts ThmProof ThmStore ThmStore2 ThmRange ThmIter ThmExcl Demo Toy ThmCrash ThmPurged ThmDamaged ThmOrigin ThmBackend.
From Coq Require Import Lia.
Local Opaque Spec.smt root_inputs ms_in.

Section values.
Context (H : list byte -> bytes32) {T : Type}.
Context (rd : T -> reader) (write : T -> tree_batch -> outcome T) (prune : T -> version -> outcome T) (held : T -> holding).
(** *** Specification: the contract of C89, except that pruning may delete values *)
Record conforms_dropping : Prop := {
  cd_node s nk : rd_node (rd s) nk = h_nodes (held s) !! nk;
  cd_value s v k x : rd_value (rd s) v k = Some x <-> latest (h_values (held s)) v k x;
  cd_write s b s' : write s b = Ok s' ->
    held s' = Held (tb_nodes b ∪ h_nodes (held s)) (tb_values b ∪ h_values (held s)) (tb_stale b ∪ h_stale (held s));
  cd_prune s l s' : prune s l = Ok s' -> exists D, D ⊆ h_stale (held s) /\ (forall log, log ∈ D -> (log.1 <= l)%N) /\ h_stale (held s') = h_stale (held s) ∖ D /\
    (** values are deleted, none is changed, and the value at [l] or a later version stays what it was *)
    h_values (held s') ⊆ h_values (held s) /\ (forall v k x, (l <= v)%N -> latest (h_values (held s')) v k x <-> latest (h_values (held s)) v k x) /\
    (forall nk, (forall w, (w, nk) ∉ D) -> h_nodes (held s') !! nk = h_nodes (held s) !! nk) /\ (forall w nk, (w, nk) ∈ D -> h_nodes (held s') !! nk = None) }.

(** *** Proof *)
Context (C : conforms_dropping).
Definition lat (P : version -> option value -> Prop) (v : version) (x : value) : Prop := exists w, (w <= v)%N /\ P w (Some x) /\ forall w', (w < w')%N -> (w' <= v)%N -> forall y, ~ P w' y.
Definition rec_ (s : T) (k : key) (w : version) (x : option value) : Prop := h_values (held s) !! (w, k) = Some x.
Definition wrote (ops : list op) (k : key) (w : version) (x : option value) : Prop := (w, x) ∈ hl 0 (history ops) k.
Lemma lat_latest s v k x : latest (h_values (held s)) v k x <-> lat (rec_ s k) v x.
Proof.
  unfold latest, lat, rec_. split; intros (w & L & E & N); exists w; (split; [done|]); (split; [done|]); intros w' L1 L2.
  - intros y. by rewrite (N w' L1 L2).
  - destruct (h_values (held s) !! (w', k)) as [y|] eqn:Z; [|done]. by apply (N w' L1 L2) in Z.
Qed.
Lemma lat_wrote ops v k x : contents_at (history ops) v !! k = Some x <-> lat (wrote ops k) v x.
Proof. rewrite <- find_value_hl, (latest_find _ _ _ (hl_sorted _ _ _)). unfold lat, wrote. done. Qed.
Lemma lat_ext (P Q : version -> option value -> Prop) v x : (forall w y, P w y <-> Q w y) -> lat P v x <-> lat Q v x.
Proof. intros E. unfold lat. split; intros (w & L & A & N); exists w; (split; [done|]); (split; [by apply E|]); intros w' L1 L2 y Z; apply E in Z; by eapply N. Qed.
Lemma lat_union (P Q : version -> option value -> Prop) n v x : (forall w y, P w y -> (w < n)%N) -> (forall w y, Q w y -> (n <= w)%N) ->
  lat (fun w y => Q w y \/ P w y) v x <-> lat Q v x \/ ((forall w y, Q w y -> (v < w)%N) /\ lat P v x).
Proof.
  intros HP HQ. split.
  - intros (w & L & [A|A] & N).
    + left. exists w. split; [done|]. split; [done|]. intros w' L1 L2 y Z. by apply (N w' L1 L2 y); left.
    + right. split.
      * intros w' y Z. destruct (decide (w' <= v)%N) as [L'|L']; [|lia]. pose proof (HP _ _ A). pose proof (HQ _ _ Z). exfalso. apply (N w' ltac:(lia) L' y). by left.
      * exists w. split; [done|]. split; [done|]. intros w' L1 L2 y Z. by apply (N w' L1 L2 y); right.
  - intros [(w & L & A & N)|(F & w & L & A & N)]; exists w; (split; [done|]).
    + split; [by left|]. intros w' L1 L2 y [Z|Z]; [by apply (N w' L1 L2 y)|]. apply HP in Z. apply HQ in A. lia.
    + split; [by right|]. intros w' L1 L2 y [Z|Z]; [apply F in Z; lia|by apply (N w' L1 L2 y)].
Qed.
(** above all records the version asked for does not matter *)
Lemma lat_above (P : version -> option value -> Prop) n v v' x : (forall w y, P w y -> (w < n)%N) -> (n <= v + 1)%N -> (n <= v' + 1)%N -> lat P v x -> lat P v' x.
Proof. intros HP L L' (w & Lw & A & N). exists w. pose proof (HP _ _ A). split; [lia|]. split; [done|]. intros w' L1 L2 y Z. apply (N w' L1 ltac:(apply HP in Z; lia) y Z). Qed.
Definition dcovers (ops : list op) (st : store) (s : T) : Prop := let n := num_versions ops in
  (forall nk nd, st_nodes st !! nk = Some nd -> h_nodes (held s) !! nk = Some nd) /\
  (forall nk nd, h_nodes (held s) !! nk = Some nd -> (nk.1 < n)%N) /\
  (forall log, log ∈ h_stale (held s) -> (log.2.1 < n)%N /\ (log.1 < n)%N /\ (log ∈ st_stale st \/ st_nodes st !! log.2 = None)) /\
  (forall k w x, rec_ s k w x -> wrote ops k w x) /\ (forall v k x, (Driver.floor ops <= v)%N -> lat (rec_ s k) v x <-> lat (wrote ops k) v x).
Lemma wrote_lt ops k w x : wrote ops k w x -> (w < num_versions ops)%N.
Proof. intros E. apply hl_lt in E. unfold num_versions. lia. Qed.
Lemma dcovers_value ops st s v k : dcovers ops st s -> (Driver.floor ops <= v)%N -> rd_value (rd s) v k = contents_at (history ops) v !! k.
Proof. intros (_ & _ & _ & _ & C5) L. apply option_eq. intros x. by rewrite (cd_value C), lat_latest, (C5 v k x L), lat_wrote. Qed.
(** The iterator reads the value of a leaf at the version of the leaf's node, which may be below the floor; but no write to the key lies in between. *)
Lemma leaf_unwritten ops x i k q h : (xrun H tb0 ops).1 !! i = Some x -> q <> [] -> 2 <= size (U (parent q) (a_map (vs_a x))) -> U q (a_map (vs_a x)) = {[ k := h ]} ->
  (a_ver (vs_a x) q <= N.of_nat i)%N /\ forall w y, wrote ops k w y -> (w <= N.of_nat i)%N -> (w <= a_ver (vs_a x) q)%N.
Proof.
  intros E Hq Mn EU. destruct (xrun_sim H ops) as [F _]. destruct (Forall2_lookup_l _ _ _ _ _ F E) as (y & Ey & _ & E2 & E3).
  pose proof (lookup_lt_Some _ _ _ Ey) as Li. rewrite trace0_length in Li.
  pose proof (trace0_lver H _ _ _ Ey q k) as L. rewrite <- E2, <- E3 in L by done.
  destruct L as [L1 L2]; [split; [done|]; split; [done|]; by eexists|].
  rewrite take_length_le in L1 by lia. split; [lia|]. intros w z Hw Lw. destruct (decide (w <= a_ver (vs_a x) q)%N) as [?|N]; [done|].
  apply elem_of_hl in Hw as (j & s & Ej & -> & Lz). rewrite N.add_0_l in *. rewrite (L2 j s) in Lz; [done| |lia]. rewrite lookup_take by lia. exact Ej.
Qed.
Lemma dcovers_view ops st xs s v : run H ops = Ok (st, xs) -> dcovers ops st s -> readable ops v -> view H (rd s) v (contents_at (history ops) v).
Proof.
  intros R Cs [L1 L2]. pose proof R as R0. apply run_inv in R0 as [_ S]. destruct (read_ok H _ _ _ _ _ v S L1 L2) as (x & E & Vx & Mx & [Rt K]).
  pose proof Cs as (C1 & _ & _ & C4 & C5). exists (a_ver (vs_a x)). split; [|split].
  - split; [rewrite (cd_node C); apply C1; exact Rt|]. intros p Hp n Ne. rewrite (cd_node C). apply C1. by apply K.
  - intros p n k y Mn EU. assert (Ey : contents_at (history ops) v !! k = Some y). { assert (X : U (p ++ [n]) (contents_at (history ops) v) !! k = Some y) by (rewrite EU; apply lookup_singleton). by apply U_lookup in X as [X _]. }
    destruct (leaf_unwritten ops x (N.to_nat v) k (p ++ [n]) (H y)) as [Lw Nw]; [done|destruct p; discriminate|rewrite parent_snoc, Mx, U_fm_size; done|rewrite Mx, U_fm, EU; apply map_fmap_singleton|].
    rewrite N2Nat.id in Lw, Nw. rewrite (cd_value C), lat_latest. apply lat_wrote in Ey. apply (C5 v k y L1) in Ey as (w & Ww & A & N). exists w. split; [by apply (Nw w _ (C4 _ _ _ A))|]. split; [done|]. intros w' La Lb z. apply (N w' La). lia.
  - intros k. by apply (dcovers_value ops st).
Qed.
Lemma dcovers_put ops st xs s sets : run H ops = Ok (st, xs) -> dcovers ops st s -> let n := num_versions ops in
  put_value_sets H (rd s) sets n = put_value_sets H (store_reader st) sets n /\ put_value_sets_with_proof H (rd s) sets n = put_value_sets_with_proof H (store_reader st) sets n.
Proof.
  intros R (C1 & C2 & _) n. set (r := store_reader st). set (r' := rd s).
  assert (Le : forall nk nd, rd_node r nk = Some nd -> rd_node r' nk = Some nd) by (intros nk nd E; unfold r'; rewrite (cd_node C); by apply C1).
  assert (Fr : forall w, (n <= w)%N -> rd_node r' (w, []) = None). { intros w L. unfold r'. rewrite (cd_node C). destruct (h_nodes (held s) !! (w, [])) as [nd|] eqn:E; [|done]. apply C2 in E. cbn in E. fold n in E. lia. }
  pose proof R as R0. apply run_inv in R0 as [_ S0]. destruct (commit_batch H _ _ _ _ _ sets S0) as (_ & b & pfss & P1 & P2 & _). fold (num_versions ops) in P1, P2. fold n r in P1, P2. rewrite P1, P2.
  assert (Ec : cache_new r' n = cache_new r n).
  { unfold cache_new. destruct (N.eqb_spec n 0) as [Z|Z]; [|done]. assert (E' : rd_node r' (nk_root PRE_GENESIS_VERSION) = None) by (apply Fr; rewrite Z; lia).
    destruct (rd_node r (nk_root PRE_GENESIS_VERSION)) as [nd|] eqn:E; [apply Le in E; congruence|]. by rewrite E'. }
  assert (Rh : CommitMono.rootish r n (tc_root (cache_new r n))).
  { unfold cache_new. destruct (N.eqb_spec n 0) as [Z|Z].
    - assert (E' : rd_node r' (nk_root PRE_GENESIS_VERSION) = None) by (apply Fr; rewrite Z; lia). destruct (rd_node r (nk_root PRE_GENESIS_VERSION)) as [nd|] eqn:E; [apply Le in E; congruence|]. exists 0%N. split; [done|]. left. lia.
    - exists (n - 1)%N. split; [done|]. right. assert (Rd : readable ops (n - 1)%N) by (apply latest_readable; fold n; lia). destruct (run_view H _ _ _ _ R Rd) as (ver & [Rt _] & _). unfold r. by rewrite Rt. }
  split.
  - unfold put_value_sets in *. rewrite Ec. apply bind_inv' in P1 as (c & P1 & Eb). by rewrite (CommitMono.put_sets_le H r r' n Le Fr sets n _ c (N.le_refl _) Rh P1), bind_Ok.
  - unfold put_value_sets_with_proof in *. rewrite Ec. apply bind_inv' in P2 as (c & P2 & Eb). destruct c as [ps c]. by rewrite (CommitMono.put_sets_wp_le H r r' n Le Fr sets n _ (ps, c) (N.le_refl _) Rh P2), bind_Ok.
Qed.
Lemma history_snoc ops o : history (ops ++ [o]) = history ops ++ op_sets o.
Proof. rewrite history_app. f_equal. unfold history. cbn [flat_map]. apply app_nil_r. Qed.
(** a commit to both *)
Lemma dcovers_write ops st xs s o sets roots b st' s' : run H ops = Ok (st, xs) -> dcovers ops st s -> op_sets o = sets -> (forall l, o <> Purge l) ->
  put_value_sets H (store_reader st) sets (num_versions ops) = Ok (roots, b) -> write_tree_update_batch st b = Ok st' -> write s b = Ok s' -> dcovers (ops ++ [o]) st' s'.
Proof.
  intros R (C1 & C2 & C3 & C4 & C5) Eo No P W W'. pose proof (ThmVersions.C74_versions_in_batch H ops st xs sets roots b R P) as (B1 & B2 & B3). cbn zeta in B1, B2, B3.
  pose proof (ThmVersions.C74_versions_in_store H ops st xs R) as (S1 & S2 & _). set (n := num_versions ops) in *.
  assert (En : num_versions (ops ++ [o]) = (n + N.of_nat (length sets))%N). { unfold n, num_versions. rewrite history_snoc, app_length, Eo. lia. }
  assert (Wn : st_nodes st' = tb_nodes b ∪ st_nodes st /\ st_stale st' = tb_stale b ∪ st_stale st).
  { unfold write_tree_update_batch, write_node_batch in W. apply bind_inv' in W as (s1 & W1 & W). apply bind_inv' in W1 as (u & _ & W1). apply bind_inv' in W1 as (h & _ & W1). injection W1 as <-. apply bind_inv' in W as (u' & _ & W). injection W as <-. done. }
  destruct Wn as [Wn Ws]. apply (cd_write C) in W'. unfold dcovers. rewrite En. assert (Wh : h_nodes (held s') = tb_nodes b ∪ h_nodes (held s) /\ h_stale (held s') = tb_stale b ∪ h_stale (held s)) by (by rewrite W'). destruct Wh as [-> ->]. split; [|split; [|split]].
  - intros nk nd E. rewrite Wn in E. apply lookup_union_Some_raw in E as [E|[E1 E2]]; apply lookup_union_Some_raw; [by left|right]. split; [done|by apply C1].
  - intros nk nd E. apply lookup_union_Some_raw in E as [E|[_ E]]; [apply B1 in E as [? _]; lia|]. apply C2 in E. lia.
  - intros [w nk] E. rewrite Wn, Ws. cbn [fst snd]. apply elem_of_union in E as [E|E]; [pose proof (B2 _ _ E); split; [lia|]; split; [lia|]; left; apply elem_of_union; by left|].
    destruct (C3 _ E) as (L1 & L2 & D). cbn [fst snd] in L1, L2, D. split; [lia|]. split; [lia|]. destruct D as [D|D]; [left; apply elem_of_union; by right|right].
    apply lookup_union_None. split; [|exact D]. destruct (tb_nodes b !! nk) as [nd|] eqn:E'; [|done]. apply B1 in E' as [? _]. lia.
  - assert (Wv : forall k w x, rec_ s' k w x <-> (n <= w)%N /\ tb_values b !! (w, k) = Some x \/ rec_ s k w x).
    { intros k w x. unfold rec_. rewrite W'. cbn [h_values]. rewrite lookup_union_Some_raw. split.
      - intros [E|[_ E]]; [left|by right]. split; [|done]. apply B3 in E. lia.
      - intros [[_ E]|E]; [by left|right]. split; [|done]. destruct (tb_values b !! (w, k)) as [y|] eqn:Z; [|done]. apply B3 in Z. apply C4, wrote_lt in E. lia. }
    assert (Ww : forall k w x, wrote (ops ++ [o]) k w x <-> (n <= w)%N /\ tb_values b !! (w, k) = Some x \/ wrote ops k w x).
    { intros k w x. pose proof R as R0. apply run_inv in R0 as [_ S0]. destruct (commit_batch H _ _ _ _ _ sets S0) as (_ & b' & pfss & P1 & _ & P3 & _). fold (num_versions ops) in P1. fold n in P1. rewrite P in P1. injection P1 as _ <-.
      pose proof (bo_values _ _ _ _ _ P3) as Ev. fold (num_versions ops) in Ev. fold n in Ev. unfold wrote. rewrite history_snoc, hl_app, Eo, elem_of_app.
      assert (Eb : tb_values b !! (w, k) = Some x <-> (w, x) ∈ hl (0 + N.of_nat (length (history ops))) sets k).
      { rewrite Ev. rewrite bvals_lookup by (intros; apply lookup_empty). rewrite lookup_empty. unfold n, num_versions. rewrite N.add_0_l. naive_solver. }
      rewrite <- Eb. split; [intros [E|E]; [by right|]; left; split; [apply B3 in E; lia|done]|]. intros [[_ E]|E]; [by right|by left]. }
    split.
    + intros k w x E. apply Ww. apply Wv in E as [E|E]; [by left|right; by apply C4].
    + intros v k x Lf. assert (Ef : Driver.floor (ops ++ [o]) = Driver.floor ops). { unfold Driver.floor. rewrite fold_left_app. cbn [fold_left]. destruct o as [?|?|l]; [done|done|by destruct (No l)]. }
      rewrite Ef in Lf. rewrite (lat_ext _ _ v x (Wv k)), (lat_ext _ _ v x (Ww k)).
      rewrite (lat_union (rec_ s k) (fun w y => (n <= w)%N /\ tb_values b !! (w, k) = Some y) n) by (try (intros w y [? _]; done); intros w y E; apply C4, wrote_lt in E; exact E).
      rewrite (lat_union (wrote ops k) (fun w y => (n <= w)%N /\ tb_values b !! (w, k) = Some y) n) by (try (intros w y [? _]; done); intros w y E; apply wrote_lt in E; exact E).
      by rewrite (C5 v k x Lf).
Qed.
Lemma purge_loop_stale l : forall s s', purge_loop s l = Ok s' -> st_stale s' = st_stale s ∖ list_to_set l.
Proof using.
  clear.
  induction l as [|log l IH]; intros s s' E; cbn [purge_loop] in E; [injection E as <-; set_solver|]. apply bind_inv' in E as (u & _ & E). apply IH in E. rewrite E. cbn [st_stale list_to_set]. set_solver.
Qed.
Lemma dcovers_prune ops st xs s l st' s' : run H ops = Ok (st, xs) -> dcovers ops st s -> purge_stale_nodes st l = Ok st' -> prune s l = Ok s' -> dcovers (ops ++ [Purge l]) st' s'.
Proof.
  intros R (C1 & C2 & C3 & C4 & C5) P P'. apply (cd_prune C) in P' as (D & Ds & Dl & Es & Ev & El & Ek & Ed). pose proof P as Pn. apply purge_loop_nodes in Pn as [_ Pn]. apply purge_loop_stale in P.
  assert (Eh : history (ops ++ [Purge l]) = history ops) by (rewrite history_app; apply app_nil_r). unfold dcovers, num_versions. rewrite Eh, Es. fold (num_versions ops).
  assert (G : forall nk nd, st_nodes st' !! nk = Some nd -> forall w, (w, nk) ∉ D).
  { intros nk nd E w Hw. apply Pn in E as [E Q]. destruct (C3 _ (Ds _ Hw)) as (_ & _ & [Hs|Hs]); [|cbn in Hs; congruence]. apply (Q (w, nk)); [|done]. apply elem_of_elements, elem_of_filter. split; [by apply Dl|done]. }
  split; [|split; [|split]].
  - intros nk nd E. rewrite Ek; [apply C1; by apply Pn in E as [? _]|by eapply G].
  - intros nk nd E. destruct (decide (exists log, log ∈ D /\ log.2 = nk)) as [([w nk'] & Hd & <-)|Nd].
    + cbn [snd] in E. rewrite (Ed _ _ Hd) in E. done.
    + rewrite Ek in E; [by eapply C2|]. intros w Hw. apply Nd. by exists (w, nk).
  - intros log Hl. apply elem_of_difference in Hl as [Hl _]. destruct (C3 _ Hl) as (L1 & L2 & [Hs|Hs]); (split; [done|]; split; [done|]).
    + rewrite P. destruct (decide (log.1 <= l)%N) as [L|L].
      * right. destruct (st_nodes st' !! log.2) as [nd|] eqn:E; [|done]. apply Pn in E as [_ Q]. exfalso. apply (Q log); [|done]. apply elem_of_elements, elem_of_filter. done.
      * left. apply elem_of_difference. split; [done|]. intros Z. apply elem_of_list_to_set, elem_of_elements, elem_of_filter in Z as [Z _]. done.
    + right. destruct (st_nodes st' !! log.2) as [nd|] eqn:E; [|done]. apply Pn in E as [E _]. congruence.
  - assert (Sub : forall k w x, rec_ s' k w x -> rec_ s k w x) by (intros k w x E; exact (lookup_weaken _ _ _ _ E Ev)).
    assert (Ew : wrote (ops ++ [Purge l]) = wrote ops) by (unfold wrote; by rewrite Eh). rewrite Ew. split; [intros k w x E; by apply C4, Sub|]. intros v k x Lf.
    assert (Ef : Driver.floor (ops ++ [Purge l]) = N.max (Driver.floor ops) (N.min l (num_versions ops - 1))). { unfold Driver.floor. rewrite fold_left_app. cbn [fold_left floor_step fst]. f_equal. f_equal. rewrite (proj1 (proj2 (floor_inv ops (0, 0)%N ltac:(by left)))). reflexivity. }
    rewrite Ef in Lf. rewrite <- (C5 v k x) by lia. assert (Lt : forall w y, rec_ s k w y -> (w < num_versions ops)%N) by (intros w y E; apply C4, wrote_lt in E; exact E).
    destruct (decide (l <= v)%N) as [L|L]; [by rewrite <- !lat_latest, El|].
    split; intros Z.
    + apply (lat_above (rec_ s k) (num_versions ops) l v); [done|lia|lia|]. rewrite <- lat_latest, <- El, lat_latest by lia. apply (lat_above (rec_ s' k) (num_versions ops) v l); [|lia|lia|done]. intros w y E. eapply Lt, Sub, E.
    + apply (lat_above (rec_ s' k) (num_versions ops) l v); [intros w y E; eapply Lt, Sub, E|lia|lia|]. rewrite <- lat_latest, El, lat_latest by lia. by apply (lat_above (rec_ s k) (num_versions ops) v l); [|lia|lia|].
Qed.
Lemma dcovers_step ops st xs s o s' x : run H ops = Ok (st, xs) -> dcovers ops st s -> bstep H rd write prune s (num_versions ops) o = Ok (s', x) ->
  exists st', step H st (num_versions ops) o = Ok (st', x) /\ dcovers (ops ++ [o]) st' s'.
Proof.
  intros R Cs E. pose proof R as R0. apply run_inv in R0 as [_ S0]. destruct (step_ok H st _ _ _ o S0) as (st' & x' & E' & _). fold (num_versions ops) in E'.
  destruct o as [sets|sets|l]; cbn [bstep] in E; pose proof E' as E2; cbn [step] in E2.
  - destruct (dcovers_put ops st xs s sets R Cs) as [Ep _]. rewrite Ep in E. apply bind_inv' in E2 as ([roots b] & P & E2). rewrite P, bind_Ok in E. apply bind_inv' in E2 as (st1 & W & E2). injection E2 as <- <-.
    apply bind_inv' in E as (s1 & W' & E). injection E as <- <-. exists st1. split; [exact E'|]. by eapply dcovers_write.
  - destruct (dcovers_put ops st xs s sets R Cs) as [_ Ep]. rewrite Ep in E. apply bind_inv' in E2 as ([roots b] & P & E2). rewrite P, bind_Ok in E. apply bind_inv' in E2 as (st1 & W & E2). injection E2 as <- <-.
    apply bind_inv' in E as (s1 & W' & E). injection E as <- <-. exists st1. split; [exact E'|].
    destruct (commit_batch H _ _ _ _ _ sets S0) as (_ & b' & pfss & P1 & P2 & _). fold (num_versions ops) in P1, P2. rewrite P in P2. injection P2 as -> ->. by eapply dcovers_write.
  - apply bind_inv' in E2 as (st1 & P & E2). injection E2 as <- <-. apply bind_inv' in E as (s1 & P' & E). injection E as <- <-. exists st1. split; [exact E'|]. by eapply dcovers_prune.
Qed.
Lemma dcovers_run more : forall ops st xs s s' ys, run H ops = Ok (st, xs) -> dcovers ops st s -> brun_from H rd write prune s (num_versions ops) more = Ok (s', ys) ->
  exists st', run_from H st (num_versions ops) more = Ok (st', ys) /\ run H (ops ++ more) = Ok (st', xs ++ ys) /\ dcovers (ops ++ more) st' s'.
Proof.
  induction more as [|o more IH]; intros ops st xs s s' ys R Cs E; cbn [brun_from run_from] in *.
  - injection E as <- <-. exists st. rewrite !app_nil_r. done.
  - apply bind_inv' in E as ([s1 x] & E1 & E). apply bind_inv' in E as ([s2 ys2] & E2 & E). injection E as <- <-.
    destruct (dcovers_step ops st xs s o s1 x R Cs E1) as (st1 & St & Cs1). pose proof (run_snoc H _ _ _ _ _ _ R St) as R1.
    assert (En : (num_versions ops + N.of_nat (length (op_sets o)))%N = num_versions (ops ++ [o])). { unfold num_versions. rewrite history_snoc, app_length. lia. }
    rewrite En in *. destruct (IH _ _ _ _ _ _ R1 Cs1 E2) as (st' & Q1 & Q2 & Q3). exists st'. rewrite St, bind_Ok, Q1, bind_Ok. rewrite <- !app_assoc in Q2, Q3. cbn [app] in Q2, Q3. split; [reflexivity|]. split; [rewrite <- app_assoc in Q2; exact Q2|exact Q3].
Qed.

(** *** C90 *)
Context (s0 : T) (E0 : held s0 = Held ∅ ∅ ∅).
Lemma dcovers_empty : dcovers [] store_empty s0.
Proof using E0.
  unfold dcovers, rec_. rewrite E0. cbn [h_nodes h_values h_stale]. split; [intros nk nd E; discriminate E|]. split; [intros nk nd E; discriminate E|]. split; [intros log Z; by apply elem_of_empty in Z|].
  split; [intros k w x E; discriminate E|]. intros v k x _. split; intros (w & _ & E & _); [discriminate E|]. by apply elem_of_nil in E.
Qed.
(** Every history that succeeds on such a store gives the same roots, proofs and update batches as on the mock store, which never deletes a value, and every readable version
    answers every query with its contents. *)
Theorem C90_values ops s ys : brun_from H rd write prune s0 0 ops = Ok (s, ys) -> exists st, run H ops = Ok (st, ys) /\
  forall v, readable ops v -> reader_reads_as H (rd s) v (contents_at (history ops) v) /\ same_answers H (rd s) v (store_reader st) v.
Proof using C E0.
  intros E. destruct (dcovers_run ops [] store_empty [] s0 s ys eq_refl dcovers_empty E) as (st & _ & R & Cs). cbn [app] in R, Cs. exists st. split; [exact R|].
  intros v Rv. pose proof (dcovers_view ops st ys s v R Cs Rv) as V. split; [by apply view_reader|]. eapply view_same; [exact V|by apply (run_view H ops st ys v R Rv)].
Qed.
(** ... and if it accepts what is new, every history succeeds. *)
Theorem C90_accepts ops : accepts write prune held -> exists s ys, brun_from H rd write prune s0 0 ops = Ok (s, ys).
Proof using C E0.
  intros [Ap Aw]. cut (forall more ops st xs s, run H ops = Ok (st, xs) -> dcovers ops st s -> exists s' ys, brun_from H rd write prune s (num_versions ops) more = Ok (s', ys)).
  { intros G. exact (G ops [] store_empty [] s0 eq_refl dcovers_empty). }
  clear ops. induction more as [|o more IH]; intros ops st xs s R Cs; [by eexists s, []|]. cbn [brun_from].
  assert (Es : exists s1 x, bstep H rd write prune s (num_versions ops) o = Ok (s1, x)).
  { pose proof R as R0. apply run_inv in R0 as [_ S0]. pose proof Cs as (C1 & C2 & C3 & C4 & C5).
    assert (G : forall sets roots b, put_value_sets H (store_reader st) sets (num_versions ops) = Ok (roots, b) -> exists s1, write s b = Ok s1).
    { intros sets roots b P. pose proof (ThmVersions.C74_versions_in_batch H ops st xs sets roots b R P) as (B1 & B2 & B3). cbn zeta in B1, B2, B3. apply Aw.
      - intros nk [nd E]. apply B1 in E as [L _]. destruct (h_nodes (held s) !! nk) as [nd'|] eqn:E'; [|done]. apply C2 in E'. lia.
      - intros [w nk] E Z. apply B2 in E as [_ L]. apply C3 in Z as (_ & L' & _). cbn [fst] in L'. lia.
      - intros w w' k [x E] [y E']. apply B3 in E. apply C4, wrote_lt in E'. lia. }
    destruct o as [sets|sets|l]; cbn [bstep].
    - destruct (dcovers_put ops st xs s sets R Cs) as [Ep _]. rewrite Ep. destruct (commit_batch H _ _ _ _ _ sets S0) as (_ & b & pfss & P1 & _). fold (num_versions ops) in P1. rewrite P1, bind_Ok.
      destruct (G _ _ _ P1) as (s1 & W). rewrite W, bind_Ok. eauto.
    - destruct (dcovers_put ops st xs s sets R Cs) as [_ Ep]. rewrite Ep. destruct (commit_batch H _ _ _ _ _ sets S0) as (_ & b & pfss & P1 & P2 & _). fold (num_versions ops) in P1, P2. rewrite P2, bind_Ok.
      destruct (G _ _ _ P1) as (s1 & W). rewrite W, bind_Ok. eauto.
    - destruct (Ap s l) as (s1 & P). rewrite P, bind_Ok. eauto. }
  destruct Es as (s1 & x & E1). rewrite E1, bind_Ok. destruct (dcovers_step ops st xs s o s1 x R Cs E1) as (st1 & St & Cs1). pose proof (run_snoc H _ _ _ _ _ _ R St) as R1.
  assert (En : (num_versions ops + N.of_nat (length (op_sets o)))%N = num_versions (ops ++ [o])). { unfold num_versions. rewrite history_snoc, app_length. lia. }
  rewrite En. destruct (IH _ _ _ _ R1 Cs1) as (s' & ys & E2). rewrite E2, bind_Ok. eauto.
Qed.
End values.

(** *** A store that drops what it may: a value that is superseded at [l] or earlier, and a deletion at [l] or earlier with nothing before it worth keeping. *)
Definition keeps (l : version) (vals : gmap (version * key) (option value)) (e : version * key * option value) : Prop :=
  (l < e.1.1)%N \/ (e.2 <> None /\ map_Forall (fun wk _ => ~ (wk.2 = e.1.2 /\ (e.1.1 < wk.1)%N /\ (wk.1 <= l)%N)) vals).
Global Instance keeps_dec l vals e : Decision (keeps l vals e).
Proof. unfold keeps. apply _. Defined.
Definition thrifty_prune (s : holding) (l : version) : outcome holding :=
  let D := archive_gone 0 l s in
  Ok (Held (filter (fun e => e.1 ∉ (set_map snd D : gset nodekey)) (h_nodes s)) (filter (fun e => keeps l (h_values s) e) (h_values s)) (h_stale s ∖ D)).
Theorem thrifty_conforms : conforms_dropping archive_reader archive_write thrifty_prune id.
Proof.
  split.
  - done.
  - intros s v k x. cbn [archive_reader rd_value id]. rewrite look_down_latest, N2Nat.id. done.
  - intros s b s' [= <-]. done.
  - intros s l s' [= <-]. exists (archive_gone 0 l s). cbn [id h_nodes h_values h_stale]. set (D := archive_gone 0 l s). split; [unfold D, archive_gone; intros log Hl; by apply elem_of_filter in Hl as [_ ?]|].
    split; [intros log Hl; apply elem_of_filter in Hl as [Hl _]; lia|]. split; [done|]. split; [apply map_filter_subseteq|]. split; [|split].
    + intros v k x L. set (vals := h_values s). split; intros (w & Lw & E & N).
      * apply map_filter_lookup_Some in E as [E K]. exists w. split; [done|]. split; [done|]. intros w' L1 L2. destruct (vals !! (w', k)) as [y|] eqn:E'; [|done]. exfalso.
        destruct K as [K|[_ K]]; cbn [fst snd] in K.
        { pose proof (N w' L1 L2) as N'. apply (map_filter_lookup_None_1) in N' as [N'|N']; [congruence|]. apply (N' y E'). left. cbn. lia. }
        destruct (decide (w' <= l)%N) as [Ll|Ll]; [by apply (K (w', k) y E')|].
        pose proof (N w' L1 L2) as N'. apply (map_filter_lookup_None_1) in N' as [N'|N']; [congruence|]. apply (N' y E'). left. cbn. lia.
      * exists w. split; [done|]. split.
        { apply map_filter_lookup_Some. split; [done|]. destruct (decide (l < w)%N) as [Ll|Ll]; [by left|]. right. split; [done|]. intros [w' k'] y Ey (Ek & L1 & L2). cbn in Ek, L1, L2. subst k'. rewrite (N w' L1) in Ey by lia. done. }
        intros w' L1 L2. apply map_filter_lookup_None. left. by apply N.
    + intros nk Hn. apply option_eq. intros nd. rewrite map_filter_lookup_Some. split; [by intros [? _]|]. intros E. split; [done|]. cbn [fst]. intros Z. apply elem_of_map in Z as ([w nk'] & -> & Z). by apply Hn in Z.
    + intros w nk Hd. apply map_filter_lookup_None. right. intros nd _ Z. apply Z. cbn [fst]. apply elem_of_map. by exists (w, nk).
Qed.
(** the demo history on it: of the values at the purged versions only those still in force are left, and the latest version reads as ever *)
Theorem demo_thrifty : exists s ys st, brun_from toy archive_reader archive_write thrifty_prune (Held ∅ ∅ ∅) 0 demo = Ok (s, ys) /\ run toy demo = Ok (st, ys) /\
  reader_reads_as toy (archive_reader s) 4 demo_map /\ h_values s !! (0%N, K00) = None /\ h_values s !! (2%N, K80) = None /\ h_values s !! (1%N, K00) = Some (Some vb).
Proof.
  assert (A : accepts archive_write thrifty_prune id) by (split; intros; eexists; reflexivity).
  destruct (C90_accepts toy archive_reader archive_write thrifty_prune id thrifty_conforms (Held ∅ ∅ ∅) eq_refl demo A) as (s & ys & E).
  destruct (C90_values toy archive_reader archive_write thrifty_prune id thrifty_conforms (Held ∅ ∅ ∅) eq_refl demo s ys E) as (st & R & Q).
  exists s, ys, st. split; [exact E|]. split; [exact R|]. split.
  - destruct (Q 4%N (proj1 (proj2 (proj2 demo_readable)))) as [Er _]. assert (Ec : contents_at (history demo) 4 = demo_map) by (apply (bool_decide_eq_true_1 _); vm_compute; reflexivity). rewrite Ec in Er. exact Er.
  - assert (X : match brun_from toy archive_reader archive_write thrifty_prune (Held ∅ ∅ ∅) 0 demo with
      Ok (s, _) => bool_decide (h_values s !! (0%N, K00) = None) && bool_decide (h_values s !! (2%N, K80) = None) && bool_decide (h_values s !! (1%N, K00) = Some (Some vb)) | _ => false end = true) by (vm_compute; reflexivity).
    rewrite E in X. clear E R Q. apply andb_prop in X as [X X3]. apply andb_prop in X as [X1 X2]. split; [exact (bool_decide_eq_true_1 _ X1)|]. split; [exact (bool_decide_eq_true_1 _ X2)|exact (bool_decide_eq_true_1 _ X3)].
Qed.
