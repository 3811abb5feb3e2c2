(** A stored leaf's version is the version of the last write to its key (needed to read values through
    the node keys, as the iterator does). *)
From Verif Require Import Base Spec NodeType ProofDef TreeCache Tree Mock Driver KeyFacts SmtFacts ProofFacts NodeFacts Canon CanonSib ReadFacts PutFacts InsertFacts PutTop VersionFacts ValueFacts StoreFacts DriverFacts DriverFacts2.
From Coq Require Import Lia.
Local Opaque Spec.smt.

Section lver.
Context (H : list byte -> bytes32).
Definition one (q : list nibble) (M : gmap key vhash) (k : key) : Prop :=
  q <> [] /\ 2 <= size (U (parent q) M) /\ exists h, U q M = {[ k := h ]}.
Lemma one_in q M k : one q M k -> is_Some (M !! k) /\ q `prefix_of` key_nibbles k.
Proof.
  intros (_ & _ & h & E). assert (X : U q M !! k = Some h) by (rewrite E; apply lookup_singleton).
  apply U_lookup in X as [X Y]. split; [by eexists|done].
Qed.
Lemma aset_leafver v M0 ver0 ch0 (s : wset) : let a := aset H v (ATree M0 ver0 ch0) s in
  forall q k, one q (a_map a) k -> a_ver a q = v \/ (one q M0 k /\ a_ver a q = ver0 q /\ last_write s k = None).
Proof.
  induction s as [|w s IH] using rev_ind; intros a q k O; [right; by split|].
  unfold a, aset in *. rewrite fold_left_app in *. cbn [fold_left] in *. set (a1 := fold_left _ s _) in *. clearbody a1.
  rewrite last_write_snoc. unfold astep in *. case_decide as N.
  - destruct (IH q k O) as [?|(A & B & C)]; [by left|]. right. split; [done|]. split; [done|].
    rewrite decide_False; [done|]. intros X. apply one_in in O as [[h Hh] _]. destruct N as [_ N]. cbn [fst snd] in N. congruence.
  - cbn [a_map a_ver fst snd] in *. unfold upd. case_decide as P; [by left|]. case_decide as P2; [|by left].
    pose proof (one_in _ _ _ O) as [_ Pk]. assert (Nk : w.1 <> k) by (intros X; apply P; by rewrite X).
    assert (O1 : one q (a_map a1) k).
    { destruct O as (O1 & _ & O3). rewrite U_apply_out in O3 by done. done. }
    destruct (IH q k O1) as [?|(A & B & C)]; [by left|]. right. split; [done|]. split; [done|]. by rewrite decide_False.
Qed.
Definition lver_ok (M : gmap key vhash) (ver : list nibble -> version) (hist : list wset) : Prop :=
  forall q k, one q M k -> (ver q < N.of_nat (length hist))%N /\ forall j s, hist !! j = Some s -> (ver q < N.of_nat j)%N -> last_write s k = None.
Lemma lver_step M0 ver0 ch0 hist s : lver_ok M0 ver0 hist -> let a := aset H (N.of_nat (length hist)) (ATree M0 ver0 ch0) s in
  lver_ok (a_map a) (a_ver a) (hist ++ [s]).
Proof.
  intros L a q k O. rewrite app_length. cbn [length]. destruct (aset_leafver _ _ _ _ _ _ _ O) as [E|(A & B & C)].
  - fold a in E. rewrite E. split; [lia|]. intros j s' Ej Lj. apply lookup_lt_Some in Ej. rewrite app_length in Ej. cbn in Ej. lia.
  - fold a in B. rewrite B. destruct (L q k A) as [L1 L2]. split; [lia|]. intros j s' Ej Lj.
    apply lookup_app_Some in Ej as [Ej|[_ Ej]]; [by eapply L2|]. apply list_lookup_singleton_Some in Ej as [_ <-]. done.
Qed.
Lemma trace_lver sets : forall b hist i x, lver_ok (bt_map b) (bt_ver b) hist -> trace H (N.of_nat (length hist)) b sets !! i = Some x ->
  lver_ok (a_map (vs_a x)) (a_ver (vs_a x)) (hist ++ take (S i) sets).
Proof.
  induction sets as [|s sets IH]; intros b hist i x L E; [done|]. cbn [trace] in E.
  destruct i as [|i]; cbn [lookup list_lookup] in E.
  - injection E as <-. cbn [vnext vs_a take]. rewrite take_0. by apply lver_step.
  - rewrite firstn_cons, cons_middle, app_assoc. eapply (IH (after (vnext H (N.of_nat (length hist)) b s))).
    + cbn [after bt_map bt_ver vnext vs_a]. by apply lver_step.
    + rewrite app_length. cbn [length]. replace (N.of_nat (length hist + 1)) with (N.of_nat (length hist) + 1)%N by lia. done.
Qed.
Lemma trace0_lver sets i x : trace0 H sets !! i = Some x -> lver_ok (a_map (vs_a x)) (a_ver (vs_a x)) (take (S i) sets).
Proof.
  assert (L0 : lver_ok ∅ (fun _ => 0%N) []).
  { intros q k O. apply one_in in O as [[h Hh] _]. by rewrite lookup_empty in Hh. }
  destruct sets as [|s sets]; cbn [trace0]; [done|]. destruct i as [|i]; cbn [lookup list_lookup].
  - intros [= <-]. cbn [vfirst vs_a take]. rewrite take_0. apply (lver_step _ _ true [] s L0).
  - intros E. rewrite firstn_cons. apply (trace_lver sets (after (vfirst H s)) [s]); [|done].
    cbn [after bt_map bt_ver vfirst vs_a]. apply (lver_step _ _ true [] s L0).
Qed.
Lemma apply_sets_same (sets : list wset) : forall (m : gmap key value) k, (forall s, s ∈ sets -> last_write s k = None) -> apply_sets m sets !! k = m !! k.
Proof.
  induction sets as [|s sets IH]; intros m k F; [done|]. unfold apply_sets in *. cbn [fold_left].
  rewrite IH by (intros; apply F; by right). rewrite apply_set_lookup, F by left. done.
Qed.
Lemma contents_at_same hist i (w : version) k : (i < length hist) -> (w <= N.of_nat i)%N ->
  (forall j s, take (S i) hist !! j = Some s -> (w < N.of_nat j)%N -> last_write s k = None) ->
  contents_at hist w !! k = contents_at hist (N.of_nat i) !! k.
Proof.
  intros Li Lw F. unfold contents_at. rewrite Nat2N.id. set (t := take (S i) hist) in *.
  assert (E : take (S (N.to_nat w)) hist = take (S (N.to_nat w)) t) by (unfold t; rewrite take_take; f_equal; lia).
  rewrite E. rewrite <- (take_drop (S (N.to_nat w)) t) at 2. unfold apply_sets at 2. rewrite fold_left_app.
  symmetry. apply (apply_sets_same (drop (S (N.to_nat w)) t)). intros s (j & Hj)%elem_of_list_lookup. rewrite lookup_drop in Hj. eapply F; [done|]. lia.
Qed.
Lemma run_leaf_value ops x i k q h : (xrun H tb0 ops).1 !! i = Some x -> q <> [] -> 2 <= size (U (parent q) (a_map (vs_a x))) ->
  U q (a_map (vs_a x)) = {[ k := h ]} -> contents_at (history ops) (a_ver (vs_a x) q) !! k = contents_at (history ops) (N.of_nat i) !! k.
Proof.
  intros E Hq Mn EU. destruct (xrun_sim H ops) as [F _]. destruct (Forall2_lookup_l _ _ _ _ _ F E) as (y & Ey & _ & E2 & E3).
  pose proof (lookup_lt_Some _ _ _ Ey) as Li. rewrite trace0_length in Li.
  pose proof (trace0_lver _ _ _ Ey q k) as L. rewrite <- E2, <- E3 in L by done.
  destruct L as [L1 L2]; [split; [done|]; split; [done|]; by eexists|].
  rewrite take_length_le in L1 by lia. apply contents_at_same; [done|lia|]. intros j s Hj. by apply L2.
Qed.
End lver.
