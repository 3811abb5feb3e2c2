(** Histories of commits and purges: the invariant of the store. *)
From Verif Require Import Base Spec NodeType ProofDef TreeCache Tree Mock KeyFacts SmtFacts ProofFacts NodeFacts Canon CanonSib ReadFacts PutFacts InsertFacts InsertInt InsertInt2 PutTop VersionFacts KeyOrder ValueFacts.
From Coq Require Import Lia.
Local Opaque Spec.smt.

Section store.
Context (H : list byte -> bytes32).
Implicit Types (M : gmap key vhash) (ver : list nibble -> version) (p q : list nibble).
Notation vs_ok := (vs_ok H).
Notation nodes_of := (nodes_of H).
Notation vnext := (vnext H).
Notation vfirst := (vfirst H).
Notation trace := (trace H).
Notation trace0 := (trace0 H).

Definition b0 : btree := BT ∅ (fun _ => 0%N) 0.
(** a new batch takes the root of the latest version under its own key *)
Definition rekey (r : version) (b : btree) : btree :=
  BT (bt_map b) (fun q => if decide (q = []) then r else bt_ver b q) r.
Lemma node_at_rekey r M ver p : node_at H M (fun q => if decide (q = []) then r else ver q) p = node_at H M ver p.
Proof. apply node_at_ext; [done|]. intros _ n _. rewrite decide_False; [done|]. intros E. by apply app_eq_nil in E as [_ ?]. Qed.

Inductive Tr : list vstate -> btree -> Prop :=
| Tr_first s : vs_ok (vfirst s) -> Tr [vfirst s] (after (vfirst s))
| Tr_next tr b b' s : Tr tr b -> b' = b \/ b' = rekey (N.of_nat (length tr) - 1) b ->
    vs_ok (vnext (N.of_nat (length tr)) b' s) ->
    Tr (tr ++ [vnext (N.of_nat (length tr)) b' s]) (after (vnext (N.of_nat (length tr)) b' s)).

Definition node_in (x : vstate) (nk : nodekey) : Prop :=
  nk = (vs_v x, []) \/ (nk.2 <> [] /\ lv [] nk.2 (a_map (vs_a x)) /\ a_ver (vs_a x) nk.2 = nk.1).
Definition node_val (x : vstate) (nk : nodekey) : node := node_at H (a_map (vs_a x)) (a_ver (vs_a x)) nk.2.

(** facts about the current tree *)
Definition cur_ok (tr : list vstate) (b : btree) : Prop :=
  (forall q, lv [] q (bt_map b) -> (exists y, y ∈ tr /\ nodes_of y (bt_ver b q, q) (node_at H (bt_map b) (bt_ver b) q)) /\
      forall y, y ∈ tr -> ~ stale_of y (bt_ver b q, q)) /\
  (exists y, y ∈ tr /\ nodes_of y (bt_root b, []) (node_at H (bt_map b) (bt_ver b) [])) /\
  (bt_map b <> ∅ -> bt_ver b [] = bt_root b) /\
  (forall x nk nd, x ∈ tr -> nodes_of x nk nd -> nk.2 <> [] -> (lv [] nk.2 (bt_map b) /\ bt_ver b nk.2 = nk.1) \/ exists z, z ∈ tr /\ stale_of z nk).
Definition tr_ok (tr : list vstate) : Prop :=
  (forall i x, tr !! i = Some x -> vs_v x = N.of_nat i) /\
  (forall x nk, x ∈ tr -> stale_of x nk -> (nk.1 < vs_v x)%N /\ exists y, y ∈ tr /\ nodes_of y nk (node_at H (vs_M0 x) (vs_ver0 x) nk.2)) /\
  (forall x x' nk, x ∈ tr -> x' ∈ tr -> stale_of x nk -> stale_of x' nk -> vs_v x = vs_v x') /\
  (forall x y nk, x ∈ tr -> y ∈ tr -> stale_of x nk -> (vs_v x <= vs_v y)%N -> ~ node_in y nk) /\
  (forall y nk, y ∈ tr -> node_in y nk -> exists z, z ∈ tr /\ nodes_of z nk (node_val y nk)) /\
  (forall x y nk nd, x ∈ tr -> y ∈ tr -> nodes_of x nk nd -> nk.2 <> [] -> (vs_v x <= vs_v y)%N ->
     node_in y nk \/ exists z, z ∈ tr /\ (vs_v z <= vs_v y)%N /\ stale_of z nk).

Lemma tr_lt tr x : tr_ok tr -> x ∈ tr -> (vs_v x < N.of_nat (length tr))%N.
Proof. intros (A & _) (i & E)%elem_of_list_lookup. rewrite (A i x E). apply lookup_lt_Some in E. lia. Qed.
Lemma tr_inj tr x y : tr_ok tr -> x ∈ tr -> y ∈ tr -> vs_v x = vs_v y -> x = y.
Proof.
  intros (A & _) (i & E)%elem_of_list_lookup (j & F)%elem_of_list_lookup. rewrite (A i x E), (A j y F). intros ?.
  assert (i = j) by lia. congruence.
Qed.

Lemma cur_rekey tr b x : tr_ok tr -> cur_ok tr b -> last tr = Some x -> b = after x ->
  cur_ok tr (rekey (N.of_nat (length tr) - 1) b).
Proof.
  intros T (C1 & C2 & C3 & C4) Lx Eb.
  assert (Hx : x ∈ tr) by (by apply last_Some_elem_of).
  assert (Vx : vs_v x = (N.of_nat (length tr) - 1)%N).
  { destruct T as (A & _). rewrite last_lookup in Lx. rewrite (A _ _ Lx). lia. }
  assert (Rt : nodes_of x ((N.of_nat (length tr) - 1)%N, []) (node_at H (bt_map b) (bt_ver b) [])).
  { unfold nodes_of. cbn. split; [done|]. split; [by rewrite Eb|by left]. }
  assert (Rn : forall y, y ∈ tr -> ~ stale_of y ((N.of_nat (length tr) - 1)%N, [])).
  { intros y Hy S. pose proof (tr_lt tr y T Hy). destruct T as (_ & T & _). apply T in S as [S _]; [|done]. cbn in S. lia. }
  split_and!; cbn [rekey bt_map bt_ver bt_root].
  - intros q Hq. rewrite node_at_rekey. case_decide as D.
    + subst q. split; [by exists x|done].
    + by apply C1.
  - exists x. rewrite node_at_rekey. done.
  - intros _. by rewrite decide_True.
  - intros y nk nd Hy N Ne. rewrite decide_False by done. by eapply C4.
Qed.

Lemma trok_snoc tr b s : let x := vnext (N.of_nat (length tr)) b s in
  tr_ok tr -> cur_ok tr b -> vs_ok x -> tr_ok (tr ++ [x]) /\ cur_ok (tr ++ [x]) (after x).
Proof.
  intros x T (C1 & C2 & C3 & C4) (O1 & O2 & O3).
  assert (Ev : vs_v x = N.of_nat (length tr)) by done. assert (E0 : vs_M0 x = bt_map b) by done.
  assert (Ever : vs_ver0 x = bt_ver b) by done. assert (Er : vs_r0 x = bt_root b) by done. clearbody x. rewrite ?E0, ?Ever in *.
  assert (Lt : forall y, y ∈ tr -> (vs_v y < vs_v x)%N) by (intros y Hy; rewrite Ev; by apply (tr_lt tr y T)).
  assert (Sx : forall nk, stale_of x nk -> lv [] nk.2 (bt_map b) /\ bt_ver b nk.2 = nk.1) by (intros nk [A _]; by rewrite E0, Ever in A).
  assert (Sd : forall nk, stale_of x nk -> (nk.1 < vs_v x)%N /\ (exists y, y ∈ tr /\ nodes_of y nk (node_at H (vs_M0 x) (vs_ver0 x) nk.2)) /\ forall y, y ∈ tr -> ~ stale_of y nk).
  { intros [w q] S. apply Sx in S as [L E]. cbn in L, E. subst w. destruct (C1 q L) as [(y & Hy & N) S]. rewrite E0, Ever. cbn [snd]. split; [|split; [by exists y|done]].
    pose proof N as [E _]. rewrite E. by apply Lt. }
  destruct T as (T1 & T2 & T3 & T4 & T5 & T6).
  assert (Old : forall y nk, y ∈ tr -> stale_of y nk -> (nk.1 < vs_v x)%N).
  { intros y nk Hy S. apply T2 in S as [S _]; [|done]. specialize (Lt y Hy). lia. }
  assert (Cu : forall y nk nd, y ∈ tr ++ [x] -> nodes_of y nk nd -> nk.2 <> [] ->
      (lv [] nk.2 (a_map (vs_a x)) /\ a_ver (vs_a x) nk.2 = nk.1) \/ exists z, z ∈ tr ++ [x] /\ stale_of z nk).
  { intros y nk nd [Hy| ->%elem_of_list_singleton]%elem_of_app N Ne.
    - destruct (decide (lv [] nk.2 (a_map (vs_a x)) /\ a_ver (vs_a x) nk.2 = nk.1)) as [D|D]; [by left|]. right.
      destruct (C4 y nk nd Hy N Ne) as [L|(z & Hz & S)]; [|exists z; split; [set_solver|done]].
      exists x. split; [set_solver|]. split; [|done]. by rewrite E0, Ever.
    - left. destruct N as (N1 & _ & [N2|[N2 N3]]); [done|]. split; [done|]. congruence. }
  assert (New : forall q, lv [] q (a_map (vs_a x)) -> (exists y, y ∈ tr ++ [x] /\ nodes_of y (a_ver (vs_a x) q, q) (node_at H (a_map (vs_a x)) (a_ver (vs_a x)) q)) /\
      forall y, y ∈ tr ++ [x] -> ~ stale_of y (a_ver (vs_a x) q, q)).
  { intros q L. destruct (O1 q L) as [E|(L0 & E & En)].
    - split.
      + exists x. split; [set_solver|]. unfold nodes_of. cbn [fst snd]. eauto.
      + intros y [Hy| ->%elem_of_list_singleton]%elem_of_app S.
        * apply Old in S; [|done]. cbn in S. lia.
        * apply Sd in S as [S _]. cbn in S. lia.
    - destruct (C1 q L0) as [(y & Hy & N) S]. split.
      + exists y. split; [set_solver|]. rewrite En. rewrite <- E. exact N.
      + intros z [Hz| ->%elem_of_list_singleton]%elem_of_app S'.
        * apply (S z Hz). cbn in E. by rewrite E.
        * destruct S' as [_ S']. cbn in S'. by apply S'. }
  split; [split_and!|split_and!].
  - intros i y [E|[Li E]]%lookup_app_Some; [by apply T1|]. apply list_lookup_singleton_Some in E as [E <-]. rewrite Ev. apply f_equal. cbn in *. lia.
  - intros y nk [Hy| ->%elem_of_list_singleton]%elem_of_app S.
    + apply T2 in S as (S & z & Hz & N); [|done]. split; [done|]. exists z. split; [set_solver|done].
    + apply Sd in S as (S & (z & Hz & N) & _). split; [done|]. exists z. split; [set_solver|done].
  - intros y z nk [Hy| ->%elem_of_list_singleton]%elem_of_app [Hz| ->%elem_of_list_singleton]%elem_of_app Sy Sz; [by eapply T3| | |done].
    + apply Sd in Sz as (_ & _ & Sz). by apply Sz in Sy.
    + apply Sd in Sy as (_ & _ & Sy). by apply Sy in Sz.
  - intros y z nk Hy [Hz| ->%elem_of_list_singleton]%elem_of_app Sy L.
    + apply elem_of_app in Hy as [Hy| ->%elem_of_list_singleton]; [exact (T4 y z nk Hy Hz Sy L)|]. specialize (Lt z Hz). lia.
    + intros [ ->|(N1 & N2 & N3)].
      * apply elem_of_app in Hy as [Hy| ->%elem_of_list_singleton]; [apply Old in Sy; [|done]; cbn in Sy; lia|]. apply Sd in Sy as [Sy _]. cbn in Sy. lia.
      * destruct (New _ N2) as [_ New2]. rewrite N3 in New2. apply (New2 y Hy). by destruct nk.
  - intros y nk [Hy| ->%elem_of_list_singleton]%elem_of_app N.
    + apply T5 in N as (z & Hz & N); [|done]. exists z. set_solver.
    + destruct N as [ ->|(N1 & N2 & N3)].
      * exists x. split; [set_solver|]. unfold nodes_of. cbn. auto.
      * destruct (New _ N2) as [(z & Hz & N) _]. rewrite N3 in N. exists z. split; [done|]. destruct nk; exact N.
  - intros y z nk nd Hy [Hz| ->%elem_of_list_singleton]%elem_of_app N Ne L.
    + apply elem_of_app in Hy as [Hy| ->%elem_of_list_singleton]; [|specialize (Lt z Hz); lia].
      destruct (T6 y z nk nd Hy Hz N Ne L) as [?|(z' & ? & ? & ?)]; [by left|right]. exists z'. split; [set_solver|done].
    + destruct (Cu y nk nd Hy N Ne) as [[D1 D2]|(z & Hz & S)]; [left; right; done|right]. exists z. split; [done|]. split; [|done].
      apply elem_of_app in Hz as [Hz| ->%elem_of_list_singleton]; [specialize (Lt z Hz)|]; lia.
  - exact New.
  - cbn [after bt_root bt_map bt_ver]. destruct (a_ch (vs_a x)) eqn:Ec.
    + exists x. split; [set_solver|]. unfold nodes_of. cbn. auto.
    + destruct C2 as (y & Hy & N). exists y. split; [set_solver|]. destruct (O3 eq_refl) as [-> ->]. rewrite Er; exact N.
  - exact O2.
  - exact Cu.
Qed.

Lemma tr_inv tr b : Tr tr b -> tr_ok tr /\ cur_ok tr b /\ exists x, last tr = Some x /\ b = after x.
Proof.
  induction 1 as [s O|tr b b' s T (T1 & C1 & x & L & Eb) Hb O].
  - assert (NL : forall q, ~ lv [] q ∅) by (intros q L; by apply lv_nil_M in L).
    assert (NS : forall nk, ~ stale_of (vfirst s) nk) by (intros nk [[L _] _]; by apply NL in L).
    assert (Ch : a_ch (vs_a (vfirst s)) = true) by (unfold vfirst; cbn; by rewrite aset_ch).
    destruct O as (O1 & O2 & O3).
    assert (New : forall q, lv [] q (a_map (vs_a (vfirst s))) -> nodes_of (vfirst s) (a_ver (vs_a (vfirst s)) q, q) (node_at H (a_map (vs_a (vfirst s))) (a_ver (vs_a (vfirst s))) q)).
    { intros q L. destruct (O1 q L) as [E|(L0 & _)]; [|by apply NL in L0]. unfold nodes_of. cbn [fst snd]. eauto. }
    split; [|split].
    + split_and!.
      * intros i x E. apply list_lookup_singleton_Some in E as [-> <-]. done.
      * intros x nk ->%elem_of_list_singleton S. by apply NS in S.
      * intros x x' nk ->%elem_of_list_singleton ->%elem_of_list_singleton S. by apply NS in S.
      * intros x x' nk ->%elem_of_list_singleton ->%elem_of_list_singleton S. by apply NS in S.
      * intros y nk ->%elem_of_list_singleton N. exists (vfirst s). split; [by apply elem_of_list_singleton|].
        destruct N as [ ->|(N1 & N2 & N3)]; [unfold nodes_of; cbn; auto|]. specialize (New _ N2). rewrite N3 in New. destruct nk; exact New.
      * intros x y nk nd ->%elem_of_list_singleton ->%elem_of_list_singleton (N1 & _ & [N2|[N2 N3]]) Ne _; [done|]. left. right. split; [done|]. split; [done|]. congruence.
    + split_and!.
      * intros q L. split; [exists (vfirst s); split; [by apply elem_of_list_singleton|by apply New]|].
        intros y ->%elem_of_list_singleton. apply NS.
      * exists (vfirst s). split; [by apply elem_of_list_singleton|]. unfold after. rewrite Ch. unfold nodes_of. cbn. auto.
      * exact O2.
      * intros x nk nd ->%elem_of_list_singleton (N1 & _ & [N2|[N2 N3]]) Ne; [done|]. left. split; [done|]. cbn in *. congruence.
    + by exists (vfirst s).
  - assert (C' : cur_ok tr b') by (destruct Hb as [->| ->]; [done|by eapply cur_rekey]).
    destruct (trok_snoc tr b' s T1 C' O) as [? ?]. split; [done|]. split; [done|]. eexists. split; [apply last_snoc|done].
Qed.

(** extending a trace by a batch *)
Lemma tr_trace sets : forall tr b b', Tr tr b -> b' = b \/ b' = rekey (N.of_nat (length tr) - 1) b ->
  Forall vs_ok (trace (N.of_nat (length tr)) b' sets) -> Tr (tr ++ trace (N.of_nat (length tr)) b' sets) (last_bt b (trace (N.of_nat (length tr)) b' sets)).
Proof.
  induction sets as [|s sets IH]; intros tr b b' T Hb F; cbn [VersionFacts.trace] in *.
  - rewrite app_nil_r. done.
  - apply Forall_cons in F as [O F]. set (x := vnext (N.of_nat (length tr)) b' s) in *.
    pose proof (Tr_next tr b b' s T Hb O) as T'. fold x in T'.
    replace (N.of_nat (length tr) + 1)%N with (N.of_nat (length (tr ++ [x]))) in * by (rewrite app_length; simpl; lia).
    specialize (IH (tr ++ [x]) (after x) (after x) T' (or_introl eq_refl) F). rewrite <- app_assoc in IH. cbn [app] in IH.
    by rewrite last_cons_bt.
Qed.
Lemma tr_trace0 sets : sets <> [] -> Forall vs_ok (trace0 sets) -> Tr (trace0 sets) (last_bt b0 (trace0 sets)).
Proof.
  destruct sets as [|s sets]; [done|]. intros _ F. cbn [VersionFacts.trace0] in *. apply Forall_cons in F as [O F].
  rewrite last_cons_bt. pose proof (Tr_first s O) as T. apply (tr_trace sets [vfirst s] (after (vfirst s)) (after (vfirst s)) T); [by left|exact F].
Qed.
Lemma trace_length sets : forall v b, length (trace v b sets) = length sets.
Proof. induction sets as [|s sets IH]; intros v b; cbn; [done|]. by rewrite IH. Qed.
Lemma trace0_length sets : length (trace0 sets) = length sets.
Proof. destruct sets; [done|]. cbn. by rewrite trace_length. Qed.
Definition trn (tr : list vstate) (b : btree) (sets : list wset) : list vstate :=
  if decide (tr = []) then trace0 sets else trace (N.of_nat (length tr)) (rekey (N.of_nat (length tr) - 1) b) sets.
Lemma trn_length tr b sets : length (trn tr b sets) = length sets.
Proof. unfold trn. case_decide; [apply trace0_length|apply trace_length]. Qed.
(** versions and maps along a trace *)
Lemma trace_maps sets : forall v b (m : gmap key value), bt_map b = H <$> m ->
  forall i x, trace v b sets !! i = Some x -> vs_v x = (v + N.of_nat i)%N /\ a_map (vs_a x) = H <$> apply_sets m (take (S i) sets).
Proof.
  induction sets as [|s sets IH]; intros v b m E i x; cbn [VersionFacts.trace]; [done|].
  assert (Em : a_map (vs_a (vnext v b s)) = H <$> apply_set m s).
  { cbn. rewrite aset_map. cbn. by rewrite E, mset_fmap. }
  destruct i as [|i]; cbn [lookup list_lookup].
  - intros [= <-]. split; [cbn; lia|]. rewrite Em. done.
  - intros Hi. destruct (IH (v + 1)%N (after (vnext v b s)) (apply_set m s) Em i x Hi) as [A B]. split; [lia|]. rewrite B. done.
Qed.
Lemma trace0_maps sets i x : trace0 sets !! i = Some x -> vs_v x = N.of_nat i /\ a_map (vs_a x) = H <$> apply_sets ∅ (take (S i) sets).
Proof.
  destruct sets as [|s sets]; cbn [VersionFacts.trace0]; [done|].
  assert (Em : a_map (vs_a (vfirst s)) = H <$> apply_set ∅ s).
  { cbn. rewrite aset_map. cbn. rewrite <- mset_fmap. by rewrite fmap_empty. }
  destruct i as [|i]; cbn [lookup list_lookup].
  - intros [= <-]. split; [cbn; lia|]. rewrite Em. done.
  - intros Hi. destruct (trace_maps sets 1%N (after (vfirst s)) (apply_set ∅ s) Em i x Hi) as [A B]. split; [lia|]. rewrite B. done.
Qed.

(** *** the store *)
Definition stale_at (tr : list vstate) (s : version) (nk : nodekey) : Prop := exists x, x ∈ tr /\ s = vs_v x /\ stale_of x nk.
(** [B]: the store lacks the (empty) roots of the versions below [B]; 0 for a store built by commits only *)
Context (B : version).
Record SInvB (st : store) (tr : list vstate) (b : btree) (hist : list wset) (f : version) : Prop := {
  sb_tr : (tr = [] /\ b = b0) \/ Tr tr b;
  sb_len : length tr = length hist;
  sb_ov : st_overwrite st = false;
  sb_stale : forall s nk, (s, nk) ∈ st_stale st -> stale_at tr s nk;
  sb_nodes : forall nk nd, st_nodes st !! nk = Some nd <-> (exists x, x ∈ tr /\ (B <= vs_v x)%N /\ nodes_of x nk nd) /\ (forall s, stale_at tr s nk -> (s, nk) ∈ st_stale st);
  sb_floor : forall s nk, stale_at tr s nk -> (f < s)%N -> (s, nk) ∈ st_stale st;
  sb_hist : hist_ok (st_history st) hist;
  sb_map : forall i x, tr !! i = Some x -> a_map (vs_a x) = H <$> contents_at hist (N.of_nat i);
  sb_base : B = 0%N \/ ((B < N.of_nat (length tr))%N /\ (B <= f)%N /\ forall x, x ∈ tr -> (vs_v x < B)%N -> a_map (vs_a x) = ∅) }.

Lemma sb_trok st tr b hist f : SInvB st tr b hist f -> tr_ok tr.
Proof.
  intros S. destruct (sb_tr _ _ _ _ _ S) as [[-> _]|T]; [|by apply tr_inv in T as [? _]].
  split_and!; [done|..]; intros *; try (intros ?%elem_of_nil; done).
Qed.
Lemma sb_bmap st tr b hist f : SInvB st tr b hist f -> bt_map b = H <$> last_contents hist.
Proof.
  intros S. destruct (sb_tr _ _ _ _ _ S) as [[-> ->]|T].
  - pose proof (sb_len _ _ _ _ _ S) as L. symmetry in L. apply length_zero_iff_nil in L as ->. cbn. by rewrite fmap_empty.
  - apply tr_inv in T as (_ & _ & x & L & ->). rewrite last_lookup in L. cbn. rewrite (sb_map _ _ _ _ _ S _ _ L).
    unfold contents_at, last_contents. rewrite take_ge; [done|]. rewrite (sb_len _ _ _ _ _ S). lia.
Qed.

(** nodes with something in them are of versions from [B] on *)
Lemma sb_nodes_ge st tr b hist f y nk nd : SInvB st tr b hist f -> y ∈ tr -> nodes_of y nk nd -> nd <> Null -> (B <= vs_v y)%N.
Proof.
  intros S Hy (_ & -> & _) Nn. destruct (sb_base _ _ _ _ _ S) as [->|(_ & _ & E)]; [lia|]. destruct (decide (B <= vs_v y)%N) as [L|L]; [done|]. exfalso. apply Nn.
  rewrite (E y Hy) by lia. apply node_at_null. apply map_empty. intros k. apply eq_None_not_Some. intros [z Z]. by apply U_lookup in Z as [? _].
Qed.
Lemma node_at_some M ver p : U p M <> ∅ -> node_at H M ver p <> Null.
Proof.
  intros Ne. destruct (size_cases (U p M)) as [E|[(k & h & E)|Hm]]; [done|by rewrite (node_at_leaf H _ _ _ k h)|by rewrite node_at_internal].
Qed.
Lemma sb_floor_ge st tr b hist f : SInvB st tr b hist f -> (B <= f)%N.
Proof. intros S. destruct (sb_base _ _ _ _ _ S) as [->|(_ & L & _)]; [lia|done]. Qed.
Lemma sb_len_ge st tr b hist f : SInvB st tr b hist f -> (B <= N.of_nat (length tr))%N /\ (tr <> [] -> B <= N.of_nat (length tr) - 1)%N.
Proof. intros S. destruct (sb_base _ _ _ _ _ S) as [->|(L & _)]; [lia|]. lia. Qed.
(** all nodes of readable versions are in the store *)
Lemma sb_node_in st tr b hist f x nk : SInvB st tr b hist f -> x ∈ tr -> (f <= vs_v x)%N -> node_in x nk -> st_nodes st !! nk = Some (node_val x nk).
Proof.
  intros S Hx L N. pose proof (sb_trok _ _ _ _ _ S) as (T1 & T2 & T3 & T4 & T5 & T6). apply (sb_nodes _ _ _ _ _ S). split.
  { destruct (T5 x nk Hx N) as (z & Hz & Nz). exists z. split; [done|]. split; [|done]. pose proof (sb_floor_ge _ _ _ _ _ S) as Bf. destruct N as [->|(N1 & (_ & N2 & _) & _)].
    - destruct Nz as [Nz _]. cbn in Nz. rewrite <- Nz. lia.
    - eapply sb_nodes_ge; [exact S|done|exact Nz|]. by apply node_at_some. }
  intros s (y & Hy & -> & Sy). destruct (decide (f < vs_v y)%N) as [Lf|Lf]; [apply (sb_floor _ _ _ _ _ S); [by exists y|done]|].
  exfalso. apply (T4 y x nk Hy Hx Sy); [lia|done].
Qed.
Lemma sb_stored st tr b hist f x : SInvB st tr b hist f -> x ∈ tr -> (f <= vs_v x)%N ->
  stored H (store_reader st) (a_map (vs_a x)) (a_ver (vs_a x)) (vs_v x).
Proof.
  intros S Hx L. split.
  - cbn. rewrite (sb_node_in st tr b hist f x (vs_v x, []) S Hx L); [done|by left].
  - intros p Hp n Ne. cbn. rewrite (sb_node_in st tr b hist f x (a_ver (vs_a x) (p ++ [n]), p ++ [n]) S Hx L); [done|]. right. cbn.
    split; [intros E; by apply app_eq_nil in E as [_ ?]|]. split; [|done]. split; [apply prefix_nil|]. split; [done|]. right. by rewrite parent_snoc.
Qed.

(** the base invariant for the next commit *)
Lemma sb_binv st tr b hist f : SInvB st tr b hist f -> tr <> [] ->
  let n := N.of_nat (length tr) in let c := cache_new (store_reader st) n in
  BInv H (store_reader st) n (rekey (n - 1) b) c /\ Ready n (rekey (n - 1) b) c /\ fz_nodes c = ∅ /\ fz_values c = ∅ /\ fz_stale c = ∅ /\ fz_stats c = [] /\ fz_roots c = [].
Proof.
  intros S Hne n c. destruct (sb_tr _ _ _ _ _ S) as [[? _]|T]; [done|].
  apply tr_inv in T as (T & C & x & L & Eb).
  pose proof (cur_rekey tr b x T C L Eb) as C'. fold n in C'. destruct C' as (C1 & C2 & C3 & _).
  assert (Hn : (0 < n)%N) by (destruct tr; [done|cbn in *; lia]).
  assert (Ec : c = mkCache (nk_root (n - 1)) n ∅ ∅ 0 ∅ 0 ∅ ∅ ∅ [] []).
  { unfold c, cache_new. assert (n =? 0 = false)%N as -> by (apply N.eqb_neq; lia). done. }
  assert (Eb2 : forall nk, base (store_reader st) c nk = st_nodes st !! nk) by (intros nk; unfold base; rewrite Ec; cbn; by rewrite lookup_empty).
  split; [|by rewrite Ec].
  split_and!.
  - intros w q Hw. rewrite Eb2. destruct (st_nodes st !! (w, q)) as [nd|] eqn:E; [|done].
    apply (sb_nodes _ _ _ _ _ S) in E as [(y & Hy & _ & N & _) _]. cbn in N. apply (tr_lt tr y T) in Hy. lia.
  - intros q Hq. destruct (C1 q Hq) as [(y & Hy & N) Hs]. split.
    + pose proof N as [N1 _]. cbn [fst] in N1. rewrite N1. by apply (tr_lt tr y T).
    + rewrite Eb2. apply (sb_nodes _ _ _ _ _ S). split; [|intros s (z & Hz & _ & Sz); by apply Hs in Sz]. exists y. split; [done|]. split; [|done].
      eapply sb_nodes_ge; [exact S|done|exact N|]. apply node_at_some. apply Hq.
  - done.
  - cbn. lia.
  - rewrite Eb2. apply (sb_nodes _ _ _ _ _ S). cbn [rekey bt_root]. split.
    + destruct C2 as (y & Hy & N). exists y. split; [done|]. split; [|done]. destruct N as [N _]. cbn in N. rewrite <- N. apply (sb_len_ge _ _ _ _ _ S). done.
    + intros s (z & Hz & _ & Sz). exfalso. pose proof (tr_lt tr z T Hz) as Lz. destruct T as (_ & T2 & _). apply T2 in Sz as [Sz _]; [|done]. cbn in Sz. lia.
Qed.

(** what a batch holds *)
Record batch_ok (tr' : list vstate) (n : version) (sets : list wset) (bt : tree_batch) : Prop := {
  bo_nodes : forall nk nd, tb_nodes bt !! nk = Some nd <-> exists x, x ∈ tr' /\ nodes_of x nk nd;
  bo_values : tb_values bt = bvals n sets ∅;
  bo_stale : forall s nk, (s, nk) ∈ tb_stale bt <-> stale_at tr' s nk;
  bo_stats : Forall2 (stats_of H) tr' (tb_stats bt) }.
Lemma frozen_batch tr' n sets c c' : frozen H tr' n sets c c' -> fz_nodes c = ∅ -> fz_values c = ∅ -> fz_stale c = ∅ -> fz_stats c = [] -> fz_roots c = [] ->
  batch_ok tr' n sets (cache_into c').2 /\ (cache_into c').1 = map (fun x => ms H [] (a_map (vs_a x))) tr'.
Proof.
  intros (F1 & F2 & F3 & (sts & F4 & F5) & F6) E1 E2 E3 E4 E5. split; [split; cbn|cbn].
  - intros nk nd. rewrite F1, E1, lookup_empty. naive_solver.
  - by rewrite F2, E2.
  - intros s nk. rewrite F3, E3. unfold stale_at. split; [intros [?|?%elem_of_empty]; done|by left].
  - by rewrite F4, E4.
  - by rewrite F6, E5.
Qed.

Lemma commit_batchB st tr b hist f sets : SInvB st tr b hist f ->
  let n := N.of_nat (length hist) in let tr' := trn tr b sets in
  ((tr ++ tr' = [] /\ last_bt b tr' = b0) \/ Tr (tr ++ tr') (last_bt b tr')) /\
  exists bt pfss, let roots := map (fun x => ms H [] (a_map (vs_a x))) tr' in
    put_value_sets H (store_reader st) sets n = Ok (roots, bt) /\
    put_value_sets_with_proof H (store_reader st) sets n = Ok (zip roots pfss, bt) /\
    batch_ok tr' n sets bt /\ pfss_ok H (bt_map b) sets pfss.
Proof.
  intros S n tr'. pose proof (sb_len _ _ _ _ _ S) as Len.
  destruct (decide (tr = [])) as [Et|Et].
  - assert (n = 0%N) as -> by (unfold n; rewrite <- Len, Et; done).
    assert (Eb : b = b0).
    { destruct (sb_tr _ _ _ _ _ S) as [[_ ?]|T]; [done|]. exfalso. destruct T; [done|]. by apply app_eq_nil in Et as [_ ?]. }
    assert (Hrd : forall nk, rd_node (store_reader st) nk = None).
    { intros nk. cbn. destruct (st_nodes st !! nk) as [nd|] eqn:E; [|done]. apply (sb_nodes _ _ _ _ _ S) in E as [(x & Hx & _) _].
      rewrite Et in Hx. by apply elem_of_nil in Hx. }
    unfold tr', trn. rewrite decide_True by done.
    assert (Ec : cache_new (store_reader st) 0 = mkCache (nk_root 0) 0 {[ nk_root 0 := Null ]} ∅ 0 ∅ 0 ∅ ∅ ∅ [] []).
    { unfold cache_new. cbn [N.eqb]. by rewrite Hrd. }
    destruct sets as [|s sets].
    { split; [left; by rewrite Et|]. eexists _, []. cbn [VersionFacts.trace0 map]. unfold put_value_sets, put_value_sets_with_proof. cbn [put_sets put_sets_with_proof].
      rewrite !bind_Ok. split; [rewrite Ec; reflexivity|]. split; [rewrite Ec; reflexivity|]. split; [|done].
      split; cbn; [|done| |constructor].
      - intros nk nd. rewrite lookup_empty. split; [done|]. intros (x & E & _). by apply elem_of_nil in E.
      - intros s nk. split; [by intros ?%elem_of_empty|]. intros (x & E & _). by apply elem_of_nil in E. }
    destruct (put_sets_first H (store_reader st) (s :: sets) Hrd ltac:(done)) as (Os & pfss & c' & P1 & P2 & P3 & P4 & P5).
    assert (Tn : Tr (trace0 (s :: sets)) (last_bt b0 (trace0 (s :: sets)))) by (by apply tr_trace0).
    split; [right; by rewrite Et, Eb|].
    destruct (frozen_batch _ _ _ _ _ P4) as [B1 B2]; [by rewrite Ec..|].
    exists (cache_into c').2, pfss. cbn zeta. rewrite <- B2. split; [|split; [|split; [done|]]].
    + unfold put_value_sets. rewrite P1, bind_Ok. by destruct (cache_into c').
    + unfold put_value_sets_with_proof. rewrite P2, bind_Ok. by destruct (cache_into c').
    + by rewrite Eb.
  - destruct (sb_tr _ _ _ _ _ S) as [[? _]|T]; [done|].
    destruct (sb_binv st tr b hist f S Et) as (BI & R & E1 & E2 & E3 & E4 & E5). rewrite Len in *. fold n in BI, R, E1, E2, E3, E4, E5.
    destruct (put_sets_next H (store_reader st) sets n _ _ BI R) as (Os & pfss & c' & P1 & P2 & P3 & P4 & P5).
    unfold tr', trn. rewrite decide_False by done. rewrite Len. fold n. split.
    { right. pose proof (tr_trace sets tr b (rekey (n - 1) b) T) as G. rewrite Len in G. fold n in G. apply G; [by right|done]. }
    destruct (frozen_batch _ _ _ _ _ P4) as [B1 B2]; [done..|].
    exists (cache_into c').2, pfss. cbn zeta. rewrite <- B2. split; [|split; [|split; [done|]]].
    + unfold put_value_sets. rewrite P1, bind_Ok. by destruct (cache_into c').
    + unfold put_value_sets_with_proof. rewrite P2, bind_Ok. by destruct (cache_into c').
    + done.
Qed.

Lemma trn_mapsB st tr b hist f sets : SInvB st tr b hist f -> forall i x, trn tr b sets !! i = Some x ->
  vs_v x = N.of_nat (length hist + i) /\ a_map (vs_a x) = H <$> contents_at (hist ++ sets) (N.of_nat (length hist + i)).
Proof.
  intros S i x. pose proof (sb_len _ _ _ _ _ S) as Len. unfold trn. case_decide as Et.
  - assert (length hist = 0) as L0 by (by rewrite <- Len, Et). apply length_zero_iff_nil in L0 as ->. cbn [length app Nat.add].
    intros E. apply trace0_maps in E as [E1 E2]. split; [done|]. rewrite E2. unfold contents_at. by rewrite Nat2N.id.
  - intros E. destruct (trace_maps sets _ (rekey (N.of_nat (length tr) - 1) b) (last_contents hist) (sb_bmap _ _ _ _ _ S) i x E) as [E1 E2].
    split; [lia|]. rewrite E2. f_equal. unfold contents_at, last_contents, apply_sets. rewrite Nat2N.id, <- fold_left_app. f_equal.
    rewrite take_app_ge by lia. f_equal. f_equal. lia.
Qed.

Lemma commit_okB st tr b hist f sets bt : SInvB st tr b hist f -> let n := N.of_nat (length hist) in let tr' := trn tr b sets in
  ((tr ++ tr' = [] /\ last_bt b tr' = b0) \/ Tr (tr ++ tr') (last_bt b tr')) -> batch_ok tr' n sets bt ->
  tb_nodes bt ##ₘ st_nodes st /\
  exists st', write_tree_update_batch st bt = Ok st' /\ SInvB st' (tr ++ tr') (last_bt b tr') (hist ++ sets) f.
Proof.
  intros S n tr' Tn BO. pose proof (sb_len _ _ _ _ _ S) as Len. pose proof (sb_trok _ _ _ _ _ S) as T.
  assert (Tok : tr_ok (tr ++ tr')).
  { destruct Tn as [[-> _]|Tn]; [|by apply tr_inv in Tn as [? _]]. split_and!; [done|..]; intros *; try (intros ?%elem_of_nil; done). }
  assert (Vn : forall x, x ∈ tr' -> (n <= vs_v x)%N).
  { intros x (i & E)%elem_of_list_lookup. apply (trn_mapsB _ _ _ _ _ _ S) in E as [-> _]. unfold n. lia. }
  assert (Vo : forall x, x ∈ tr -> (vs_v x < n)%N).
  { intros x Hx. unfold n. rewrite <- Len. by apply tr_lt. }
  assert (Dj : (dom (tb_nodes bt) : gset nodekey) ## (dom (st_nodes st) : gset nodekey)).
  { intros nk [nd E]%elem_of_dom [nd' E']%elem_of_dom. apply (bo_nodes _ _ _ _ BO) in E as (x & Hx & N & _).
    apply (sb_nodes _ _ _ _ _ S) in E' as [(y & Hy & _ & N' & _) _]. apply Vn in Hx. apply Vo in Hy. lia. }
  assert (Dn : forall nk nd, tb_nodes bt !! nk = Some nd -> st_nodes st !! nk = None).
  { intros nk nd E. apply not_elem_of_dom. intros E2. apply (Dj nk); [|done]. by apply elem_of_dom_2 in E. }
  assert (Ds : tb_stale bt ## st_stale st).
  { intros [s nk] E E'. apply (bo_stale _ _ _ _ BO) in E as (x & Hx & -> & _). apply (sb_stale _ _ _ _ _ S) in E' as (y & Hy & E & _).
    apply Vn in Hx. apply Vo in Hy. lia. }
  split; [by apply map_disjoint_dom|].
  destruct (write_batch_values (st_history st) hist sets (sb_hist _ _ _ _ _ S)) as (h' & W & Hh). fold n in W.
  eexists. split.
  { unfold write_tree_update_batch, write_node_batch. rewrite (bo_values _ _ _ _ BO), (sb_ov _ _ _ _ _ S).
    rewrite (bool_decide_eq_true_2 (dom (tb_nodes bt) ∩ dom (st_nodes st) = ∅)) by (by apply disjoint_intersection_L). cbn [orb assert_]. rewrite bind_Ok, W, !bind_Ok.
    cbn [st_stale]. rewrite (bool_decide_eq_true_2 (tb_stale bt ∩ st_stale st = ∅)) by (by apply disjoint_intersection_L). cbn [ensure_]. rewrite bind_Ok. reflexivity. }
  assert (Sa : forall s nk, stale_at (tr ++ tr') s nk <-> stale_at tr s nk \/ stale_at tr' s nk).
  { intros s nk. unfold stale_at. setoid_rewrite elem_of_app. naive_solver. }
  assert (SaX : forall s nk, stale_at tr s nk -> exists x nd, x ∈ tr /\ nodes_of x nk nd).
  { intros s nk (x & Hx & _ & Sx). destruct T as (_ & T2 & _). apply T2 in Sx as (_ & y & Hy & N); eauto. }
  split; cbn [st_nodes st_stale st_history st_overwrite].
  - done.
  - rewrite !app_length, Len. unfold tr'. by rewrite trn_length.
  - first [done|by rewrite (sb_ov _ _ _ _ _ S)].
  - intros s nk [E|E]%elem_of_union; apply Sa; [right; by apply (bo_stale _ _ _ _ BO)|left; by apply (sb_stale _ _ _ _ _ S)].
  - intros nk nd. rewrite lookup_union_Some_raw. split.
    + intros [E|[E1 E2]].
      * apply (bo_nodes _ _ _ _ BO) in E as (x & Hx & N). split; [exists x; split; [set_solver|]; split; [pose proof (proj1 (sb_len_ge _ _ _ _ _ S)) as Bl; rewrite Len in Bl; fold n in Bl; specialize (Vn x Hx); lia|done]|]. intros s [Sx|Sx]%Sa; apply elem_of_union; [right|left; by apply (bo_stale _ _ _ _ BO)].
        exfalso. apply SaX in Sx as (y & nd' & Hy & N' & _). destruct N as [N _]. apply Vn in Hx. apply Vo in Hy. lia.
      * apply (sb_nodes _ _ _ _ _ S) in E2 as [(x & Hx & Bx & N) Hs]. split; [exists x; set_solver|]. intros s [Sx|Sx]%Sa; apply elem_of_union; [right; by apply Hs|left; by apply (bo_stale _ _ _ _ BO)].
    + intros [(x & Hx & Bx & N) Hs]. apply elem_of_app in Hx as [Hx|Hx].
      * right. split.
        -- destruct (tb_nodes bt !! nk) as [nd'|] eqn:E; [|done]. apply (bo_nodes _ _ _ _ BO) in E as (y & Hy & N' & _). destruct N as [N _]. apply Vn in Hy. apply Vo in Hx. lia.
        -- apply (sb_nodes _ _ _ _ _ S). split; [eauto|]. intros s Sx. specialize (Hs s (proj2 (Sa _ _) (or_introl Sx))). apply elem_of_union in Hs as [Hs|Hs]; [|done].
           exfalso. apply (bo_stale _ _ _ _ BO) in Hs as (y & Hy & -> & _). destruct Sx as (z & Hz & E & _). apply Vn in Hy. apply Vo in Hz. lia.
      * left. apply (bo_nodes _ _ _ _ BO). eauto.
  - intros s nk [Sx|Sx]%Sa L; apply elem_of_union; [right; by apply (sb_floor _ _ _ _ _ S)|left; by apply (bo_stale _ _ _ _ BO)].
  - done.
  - intros i x [E|[L E]]%lookup_app_Some.
    + rewrite (sb_map _ _ _ _ _ S i x E). f_equal. unfold contents_at. rewrite take_app_le; [done|]. apply lookup_lt_Some in E. rewrite Nat2N.id. lia.
    + apply (trn_mapsB _ _ _ _ _ _ S) in E as [_ ->]. do 2 f_equal. lia.
  - destruct (sb_base _ _ _ _ _ S) as [?|(B1 & B2 & B3)]; [by left|right]. split; [rewrite app_length; lia|]. split; [done|].
    intros x [Hx|Hx]%elem_of_app Lx; [by apply B3|]. apply Vn in Hx. rewrite Len in B1. fold n in B1. lia.
Qed.

(** purging *)
Lemma purge_loop_ok l : forall st, NoDup (l.*2) -> (forall log, log ∈ l -> is_Some (st_nodes st !! log.2)) ->
  exists st', purge_loop st l = Ok st' /\ st_history st' = st_history st /\ st_overwrite st' = st_overwrite st /\
    (forall log, log ∈ st_stale st' <-> log ∈ st_stale st /\ log ∉ l) /\
    (forall nk nd, st_nodes st' !! nk = Some nd <-> st_nodes st !! nk = Some nd /\ nk ∉ l.*2).
Proof.
  induction l as [|log l IH]; intros st N Hl.
  - exists st. split; [done|]. split; [done|]. split; [done|]. split; [intros; set_solver|]. intros nk nd. split; [|by intros [? _]]. intros ?. split; [done|]. apply not_elem_of_nil.
  - cbn [fmap list_fmap] in N. apply NoDup_cons in N as [N1 N2].
    destruct (Hl log) as [nd0 E0]; [by left|].
    destruct (IH (mkStore (delete log.2 (st_nodes st)) (st_stale st ∖ {[ log ]}) (st_history st) (st_overwrite st)) N2) as (st' & P1 & P2 & P3 & P4 & P5).
    { intros log' Hl'. cbn. rewrite lookup_delete_ne; [apply Hl; by right|]. intros E. apply N1. rewrite E. by apply elem_of_list_fmap_1. }
    exists st'. split; [cbn [purge_loop]; rewrite E0; cbn [ensure_]; by rewrite bind_Ok|]. split; [done|]. split; [done|]. split.
    + intros log'. rewrite P4. cbn. rewrite elem_of_difference, elem_of_singleton, not_elem_of_cons. naive_solver.
    + intros nk nd. rewrite P5. cbn [st_nodes]. rewrite lookup_delete_Some. cbn [fmap list_fmap]. rewrite not_elem_of_cons. naive_solver.
Qed.
Definition pfloor (f l : version) (n : nat) : version := N.max f (N.min l (N.of_nat n - 1)).
Lemma purge_okB st tr b hist f l : SInvB st tr b hist f ->
  exists st', purge_stale_nodes st l = Ok st' /\ SInvB st' tr b hist (pfloor f l (length hist)).
Proof.
  intros S. pose proof (sb_trok _ _ _ _ _ S) as T. pose proof T as (T1 & T2 & T3 & T4 & T5 & T6).
  set (del := elements (filter (fun log => (log.1 <= l)%N) (st_stale st))).
  assert (Hd : forall log, log ∈ del <-> (log.1 <= l)%N /\ log ∈ st_stale st) by (intros log; unfold del; rewrite elem_of_elements, elem_of_filter; done).
  assert (Uq : forall s s' nk, (s, nk) ∈ st_stale st -> stale_at tr s' nk -> s' = s).
  { intros s s' nk E (x & Hx & -> & Sx). apply (sb_stale _ _ _ _ _ S) in E as (y & Hy & -> & Sy). by eapply T3. }
  destruct (purge_loop_ok del st) as (st' & P1 & P2 & P3 & P4 & P5).
  { assert (ND : NoDup del) by apply NoDup_elements. assert (Hd1 : forall log, log ∈ del -> log ∈ st_stale st) by (intros log; rewrite Hd; by intros [_ ?]).
    revert ND Hd1. generalize del. clear -Uq S. intros l0 ND.
    induction ND as [|[s nk] l0 N ND IH]; intros Hd; [constructor|]. cbn. constructor.
    - intros ([s' nk'] & E & Hl)%elem_of_list_fmap. cbn in E. subst nk'. apply N.
      assert (s' = s) as ->; [|done]. apply (Uq s s' nk).
      + apply Hd. by left.
      + apply (sb_stale _ _ _ _ _ S). apply Hd. by right.
    - apply IH. intros log Hl. apply Hd. by right. }
  { intros [s nk] [_ E]%Hd. cbn. pose proof E as Es. apply (sb_stale _ _ _ _ _ S) in E as (x & Hx & -> & Sx).
    destruct (T2 x nk Hx Sx) as (_ & y & Hy & N). eexists. apply (sb_nodes _ _ _ _ _ S). split.
    { exists y. split; [done|]. split; [|exact N]. eapply sb_nodes_ge; [exact S|done|exact N|]. apply node_at_some. destruct Sx as [[Sx _] _]. apply Sx. }
    intros s' Hs'. by rewrite (Uq _ _ _ Es Hs'). }
  assert (Hk : forall nk, nk ∉ del.*2 <-> forall s, (s, nk) ∈ st_stale st -> (l < s)%N).
  { intros nk. split.
    - intros Hn s E. destruct (decide (s <= l)%N) as [L|L]; [|lia]. destruct Hn. apply elem_of_list_fmap. exists (s, nk). split; [done|]. apply Hd. done.
    - intros Hs ([s nk'] & E & [L E']%Hd)%elem_of_list_fmap. cbn in E. subst nk'. apply Hs in E'. cbn in L. lia. }
  exists st'. split; [exact P1|]. split.
  - apply (sb_tr _ _ _ _ _ S).
  - apply (sb_len _ _ _ _ _ S).
  - rewrite P3. apply (sb_ov _ _ _ _ _ S).
  - intros s nk [E _]%P4. by apply (sb_stale _ _ _ _ _ S).
  - intros nk nd. rewrite P5, Hk, (sb_nodes _ _ _ _ _ S). split.
    + intros [[E Hs] Hl]. split; [done|]. intros s Sa. pose proof (Hs s Sa) as E1. apply P4. split; [done|]. intros [L _]%Hd. apply Hl in E1. cbn in L. lia.
    + intros [E Hs]. split; [split; [done|]|].
      * intros s Sa. apply Hs in Sa. by apply P4 in Sa as [? _].
      * intros s E1. pose proof (sb_stale _ _ _ _ _ S s nk E1) as Sa. apply Hs in Sa. apply P4 in Sa as [_ Sa].
        destruct (decide (s <= l)%N) as [L|L]; [|lia]. destruct Sa. by apply Hd.
  - intros s nk Sa L. unfold pfloor in L. apply P4. split; [apply (sb_floor _ _ _ _ _ S); [done|lia]|]. intros [L' _]%Hd. cbn in L'.
    destruct Sa as (x & Hx & -> & _). apply (tr_lt tr x T) in Hx. rewrite (sb_len _ _ _ _ _ S) in Hx. lia.
  - rewrite P2. apply (sb_hist _ _ _ _ _ S).
  - apply (sb_map _ _ _ _ _ S).
  - destruct (sb_base _ _ _ _ _ S) as [?|(B1 & B2 & B3)]; [by left|right]. split; [done|]. split; [unfold pfloor; lia|done].
Qed.
End store.

(** *** Stores built by commits and purges only: no version is missing *)
Section store0.
Context (H : list byte -> bytes32).
Notation nodes_of := (nodes_of H).
Notation trn := (trn H).
Notation Tr := (Tr H).
Notation tr_ok := (tr_ok H).
Notation node_val := (node_val H).
Notation batch_ok := (batch_ok H).
Definition SInv := SInvB H 0.
Lemma si_tr st tr b hist f : SInv st tr b hist f -> (tr = [] /\ b = b0) \/ Tr tr b.
Proof. apply sb_tr. Qed.
Lemma si_len st tr b hist f : SInv st tr b hist f -> length tr = length hist.
Proof. apply sb_len. Qed.
Lemma si_ov st tr b hist f : SInv st tr b hist f -> st_overwrite st = false.
Proof. apply sb_ov. Qed.
Lemma si_stale st tr b hist f : SInv st tr b hist f -> forall s nk, (s, nk) ∈ st_stale st -> stale_at tr s nk.
Proof. apply sb_stale. Qed.
Lemma si_floor st tr b hist f : SInv st tr b hist f -> forall s nk, stale_at tr s nk -> (f < s)%N -> (s, nk) ∈ st_stale st.
Proof. apply sb_floor. Qed.
Lemma si_hist st tr b hist f : SInv st tr b hist f -> hist_ok (st_history st) hist.
Proof. apply sb_hist. Qed.
Lemma si_map st tr b hist f : SInv st tr b hist f -> forall i x, tr !! i = Some x -> a_map (vs_a x) = H <$> contents_at hist (N.of_nat i).
Proof. apply sb_map. Qed.
Lemma si_nodes st tr b hist f : SInv st tr b hist f -> forall nk nd, st_nodes st !! nk = Some nd <-> (exists x, x ∈ tr /\ nodes_of x nk nd) /\ (forall s, stale_at tr s nk -> (s, nk) ∈ st_stale st).
Proof.
  intros S nk nd. rewrite (sb_nodes _ _ _ _ _ _ _ S). split; intros [(x & Hx & N) Hs]; (split; [|done]); exists x; [naive_solver|]. split; [done|]. split; [lia|done].
Qed.
Lemma si_empty : SInv store_empty [] b0 [] 0.
Proof.
  split; try done; [by left| | |by left].
  - intros nk nd. cbn. rewrite lookup_empty. split; [done|]. intros [(x & E & _) _]. by apply elem_of_nil in E.
  - intros s nk (x & E & _). by apply elem_of_nil in E.
Qed.
Lemma si_trok st tr b hist f : SInv st tr b hist f -> tr_ok tr.
Proof. apply sb_trok. Qed.
Lemma si_bmap st tr b hist f : SInv st tr b hist f -> bt_map b = H <$> last_contents hist.
Proof. apply sb_bmap. Qed.
Lemma si_node_in st tr b hist f x nk : SInv st tr b hist f -> x ∈ tr -> (f <= vs_v x)%N -> node_in x nk -> st_nodes st !! nk = Some (node_val x nk).
Proof. apply sb_node_in. Qed.
Lemma si_stored st tr b hist f x : SInv st tr b hist f -> x ∈ tr -> (f <= vs_v x)%N ->
  stored H (store_reader st) (a_map (vs_a x)) (a_ver (vs_a x)) (vs_v x).
Proof. apply sb_stored. Qed.
Lemma si_binv st tr b hist f : SInv st tr b hist f -> tr <> [] ->
  let n := N.of_nat (length tr) in let c := cache_new (store_reader st) n in
  BInv H (store_reader st) n (rekey (n - 1) b) c /\ Ready n (rekey (n - 1) b) c /\ fz_nodes c = ∅ /\ fz_values c = ∅ /\ fz_stale c = ∅ /\ fz_stats c = [] /\ fz_roots c = [].
Proof. apply sb_binv. Qed.
Lemma commit_batch st tr b hist f sets : SInv st tr b hist f ->
  let n := N.of_nat (length hist) in let tr' := trn tr b sets in
  ((tr ++ tr' = [] /\ last_bt b tr' = b0) \/ Tr (tr ++ tr') (last_bt b tr')) /\
  exists bt pfss, let roots := map (fun x => ms H [] (a_map (vs_a x))) tr' in
    put_value_sets H (store_reader st) sets n = Ok (roots, bt) /\
    put_value_sets_with_proof H (store_reader st) sets n = Ok (zip roots pfss, bt) /\
    batch_ok tr' n sets bt /\ pfss_ok H (bt_map b) sets pfss.
Proof. apply commit_batchB. Qed.
Lemma trn_maps st tr b hist f sets : SInv st tr b hist f -> forall i x, trn tr b sets !! i = Some x ->
  vs_v x = N.of_nat (length hist + i) /\ a_map (vs_a x) = H <$> contents_at (hist ++ sets) (N.of_nat (length hist + i)).
Proof. apply trn_mapsB. Qed.
Lemma commit_ok st tr b hist f sets bt : SInv st tr b hist f -> let n := N.of_nat (length hist) in let tr' := trn tr b sets in
  ((tr ++ tr' = [] /\ last_bt b tr' = b0) \/ Tr (tr ++ tr') (last_bt b tr')) -> batch_ok tr' n sets bt ->
  tb_nodes bt ##ₘ st_nodes st /\
  exists st', write_tree_update_batch st bt = Ok st' /\ SInv st' (tr ++ tr') (last_bt b tr') (hist ++ sets) f.
Proof. apply commit_okB. Qed.
Lemma purge_ok st tr b hist f l : SInv st tr b hist f ->
  exists st', purge_stale_nodes st l = Ok st' /\ SInv st' tr b hist (pfloor f l (length hist)).
Proof. apply purge_okB. Qed.
End store0.
