(** More about runs: nodes of a version, uniqueness of batches, independence of batching and purging. *)
From Verif Require Import Base Spec NodeType ProofDef TreeCache Tree Mock Driver KeyFacts SmtFacts ProofFacts NodeFacts Canon CanonSib ReadFacts PutFacts InsertFacts InsertInt InsertInt2 PutTop VersionFacts KeyOrder ValueFacts StoreFacts DriverFacts.
From Coq Require Import Lia.
Local Opaque Spec.smt.

Section f2.
Context (H : list byte -> bytes32).
Notation SInv := (SInv H).
Notation trn := (trn H).
Notation nodes_of := (nodes_of H).
Notation outs_ok := (outs_ok H).
Notation out_ok := (out_ok H).
Notation xrun := (xrun H).
Notation xop := (xop H).

(** *** nodes of a version *)
Lemma reach_node_in st tr b hist f x nk : SInv st tr b hist f -> x ∈ tr -> (f <= vs_v x)%N ->
  reach (store_reader st) (vs_v x) nk <-> node_in x nk.
Proof.
  intros S Hx L. split.
  - induction 1 as [|nk i n c R IH E Ec]; [by left|]. cbn in E. rewrite (si_node_in H _ _ _ _ _ x nk S Hx L IH) in E. injection E as E.
    unfold node_val in E. set (M := a_map (vs_a x)) in *. set (ver := a_ver (vs_a x)) in *.
    assert (2 <= size (U nk.2 M)) as Hm.
    { destruct (size_cases (U nk.2 M)) as [Eu|[(k & h & Eu)|?]]; [rewrite node_at_null in E by done; done| |done]. by rewrite (node_at_leaf H _ _ _ k h) in E. }
    rewrite node_at_internal in E by done. injection E as <-. cbn [in_children] in Ec. rewrite children_of_lookup in Ec. apply child_of_inv in Ec as (Ne & _ & Ev & _).
    right. cbn. split; [intros Ea; by apply app_eq_nil in Ea as [_ ?]|]. split; [|done]. split; [apply prefix_nil|]. split; [done|]. right. by rewrite parent_snoc.
  - destruct nk as [w q]. revert w. induction q as [|n q IH] using rev_ind; intros w [E|(N1 & N2 & N3)].
    + injection E as ->. apply reach_root.
    + done.
    + injection E as _ E. by apply app_eq_nil in E as [_ ?].
    + cbn in N1, N2, N3. set (M := a_map (vs_a x)) in *. set (ver := a_ver (vs_a x)) in *.
      destruct N2 as (_ & Ne & [N2|N2]); [done|]. rewrite parent_snoc in N2.
      assert (P : exists w', node_in x (w', q)).
      { destruct (decide (q = [])) as [->|Hq]; [exists (vs_v x); by left|]. exists (ver q). right. cbn. split; [done|]. split; [|done].
        split; [apply prefix_nil|]. split; [by apply U_many_ne|]. right. destruct (exists_last Hq) as (q' & n' & ->). rewrite parent_snoc. by apply (U_many_up q' [n']). }
      destruct P as (w' & P). pose proof (IH w' P) as R.
      destruct (child_of_some H M ver q n Ne) as (c & Ec & _ & Ev & _).
      replace (w, q ++ [n]) with (gen_child (w', q) (c_version c) n).
      * eapply reach_child; [exact R| |].
        -- cbn. rewrite (si_node_in H _ _ _ _ _ x _ S Hx L P). unfold node_val. cbn [snd]. by rewrite node_at_internal.
        -- cbn [in_children]. rewrite children_of_lookup. exact Ec.
      * unfold gen_child. cbn. by rewrite Ev, N3.
Qed.

(** *** batches are determined by the trace *)
Lemma stats_unique x s1 s2 : stats_of H x s1 -> stats_of H x s2 -> s1 = s2.
Proof.
  intros (N & S & HN & HS & ->) (N' & S' & HN' & HS' & ->).
  assert (N = N') as -> by (apply map_eq; intros nk; apply option_eq; intros nd; by rewrite HN, HN').
  assert (S = S') as -> by (apply set_eq; intros nk; by rewrite HS, HS'). done.
Qed.
Lemma batch_unique tr n sets b1 b2 : batch_ok H tr n sets b1 -> batch_ok H tr n sets b2 -> b1 = b2.
Proof.
  intros [A1 A2 A3 A4] [B1 B2 B3 B4]. destruct b1 as [n1 v1 s1 t1], b2 as [n2 v2 s2 t2]. cbn in *. f_equal.
  - apply map_eq. intros nk. apply option_eq. intros nd. by rewrite A1, B1.
  - congruence.
  - apply set_eq. intros [s nk]. by rewrite A3, B3.
  - clear -A4 B4. revert t2 B4. induction A4; intros t2 B4; inversion B4; subst; [done|]. f_equal; [by eapply stats_unique|by apply IHA4].
Qed.
Lemma pfs_unique s : forall M p1 p2, pfs_ok H M s p1 -> pfs_ok H M s p2 -> p1 = p2.
Proof.
  induction s as [|w s IH]; intros M [|p1 l1] [|p2 l2]; cbn [pfs_ok]; try done. intros [A1 A2] [B1 B2]. f_equal; [|by eapply IH].
  case_decide; [congruence|]. destruct A1 as (n1 & T1 & ->), B1 as (n2 & T2 & ->). by rewrite (term_unique _ _ _ _ T1 T2).
Qed.
Lemma pfss_unique sets : forall M p1 p2, pfss_ok H M sets p1 -> pfss_ok H M sets p2 -> p1 = p2.
Proof.
  induction sets as [|s sets IH]; intros M [|p1 l1] [|p2 l2]; cbn [pfss_ok]; try done. intros [A1 A2] [B1 B2]. f_equal; [by eapply pfs_unique|by eapply IH].
Qed.
Lemma out_unique tb hist o x y : out_ok tb hist o x -> out_ok tb hist o y -> x = y.
Proof.
  destruct o, x, y; cbn; try done.
  - intros [-> A] [-> B]. f_equal. by eapply batch_unique.
  - intros (p1 & -> & P1 & A) (p2 & -> & P2 & B). rewrite (pfss_unique _ _ _ _ P1 P2). f_equal. by eapply batch_unique.
Qed.

(** *** without the purges *)
Definition is_purge (o : op) : bool := match o with Purge _ => true | _ => false end.
Definition drop_purges (ops : list op) : list op := List.filter (fun o => negb (is_purge o)) ops.
Definition is_out_purge (x : out) : bool := match x with OutPurge => true | _ => false end.
Lemma drop_purges_outs ops : forall tb hist xs ys, outs_ok tb hist ops xs -> outs_ok tb hist (drop_purges ops) ys ->
  ys = List.filter (fun x => negb (is_out_purge x)) xs.
Proof.
  induction ops as [|o ops IH]; intros tb hist [|x xs] ys; cbn [DriverFacts.outs_ok]; try done.
  - destruct ys; done.
  - intros [O R]. destruct o as [sets|sets|l]; cbn [drop_purges List.filter is_purge negb].
    1,2: destruct ys as [|y ys]; [done|]; cbn [DriverFacts.outs_ok]; intros [O' R']; rewrite (out_unique _ _ _ _ _ O' O); cbn [List.filter];
      (assert (is_out_purge x = false) as -> by (by destruct x)); cbn [negb]; f_equal; eapply IH; [exact R|exact R'].
    destruct x; [done..|]. cbn. cbn in R. rewrite app_nil_r in R. intros R'. by eapply IH.
Qed.
Lemma drop_purges_xrun ops : forall tb, xrun tb (drop_purges ops) = xrun tb ops.
Proof. induction ops as [|[] ops IH]; intros tb; [done|apply IH..]. Qed.
Lemma drop_purges_history ops : history (drop_purges ops) = history ops.
Proof. induction ops as [|[] ops IH]; cbn; [done|f_equal; exact IH..|exact IH]. Qed.
Lemma drop_purges_floor ops : floor (drop_purges ops) = 0%N.
Proof.
  unfold floor. generalize 0%N at 2 as n. assert (G : forall f n, (fold_left floor_step (drop_purges ops) (f, n)).1 = f); [|intros; apply G].
  induction ops as [|[] ops IH]; intros f n; cbn; [done|apply IH..].
Qed.

(** *** batching does not matter *)
Definition bsim (b b' : btree) : Prop := bt_map b = bt_map b' /\ forall q, q <> [] -> bt_ver b q = bt_ver b' q.
Definition vsim (x y : vstate) : Prop := vs_v x = vs_v y /\ a_map (vs_a x) = a_map (vs_a y) /\ forall q, q <> [] -> a_ver (vs_a x) q = a_ver (vs_a y) q.
Lemma aset_sim v s : forall a a', a_map a = a_map a' -> (forall q, q <> [] -> a_ver a q = a_ver a' q) ->
  a_map (aset H v a s) = a_map (aset H v a' s) /\ (forall q, q <> [] -> a_ver (aset H v a s) q = a_ver (aset H v a' s) q).
Proof.
  induction s as [|w s IH]; intros a a' E1 E2; [done|]. unfold aset in *. cbn [fold_left]. apply IH.
  - unfold astep. rewrite E1. by case_decide.
  - intros q Hq. unfold astep. rewrite E1. case_decide; [by apply E2|]. cbn. unfold upd. do 2 (case_decide; [done || by apply E2|]). done.
Qed.
Lemma vnext_sim v b b' s : bsim b b' -> vsim (vnext H v b s) (vnext H v b' s) /\ bsim (after (vnext H v b s)) (after (vnext H v b' s)).
Proof.
  intros [E1 E2]. destruct (aset_sim v s (ATree (bt_map b) (bt_ver b) false) (ATree (bt_map b') (bt_ver b') false) E1 E2) as [A B].
  split; [split; [done|]; done|]. split; done.
Qed.
Lemma trace_sim sets : forall v b b', bsim b b' -> Forall2 vsim (trace H v b sets) (trace H v b' sets) /\ bsim (last_bt b (trace H v b sets)) (last_bt b' (trace H v b' sets)).
Proof.
  induction sets as [|s sets IH]; intros v b b' B; cbn [trace]; [split; [constructor|done]|].
  destruct (vnext_sim v b b' s B) as [A B']. destruct (IH (v + 1)%N _ _ B') as [C D]. split; [by constructor|]. by rewrite !last_cons_bt.
Qed.
Lemma rekey_sim r b : bsim (rekey r b) b.
Proof. split; [done|]. intros q Hq. cbn. by rewrite decide_False. Qed.
Lemma bsim_trans b1 b2 b3 : bsim b1 b2 -> bsim b2 b3 -> bsim b1 b3.
Proof. intros [A B] [C D]. split; [congruence|]. intros q Hq. rewrite B, D; done. Qed.
Lemma trace_app l1 : forall v b l2, trace H v b (l1 ++ l2) = trace H v b l1 ++ trace H (v + N.of_nat (length l1)) (last_bt b (trace H v b l1)) l2.
Proof.
  induction l1 as [|s l1 IH]; intros v b l2; cbn [trace app length]; [by rewrite N.add_0_r|].
  rewrite IH, last_cons_bt. do 3 f_equal. lia.
Qed.
Lemma trace0_app l1 l2 : l1 <> [] -> trace0 H (l1 ++ l2) = trace0 H l1 ++ trace H (N.of_nat (length l1)) (last_bt b0 (trace0 H l1)) l2.
Proof.
  destruct l1 as [|s l1]; [done|]. intros _. cbn [trace0 app length]. rewrite trace_app, last_cons_bt. do 3 f_equal. lia.
Qed.
Lemma xrun_sim ops : Forall2 vsim (xrun tb0 ops).1 (trace0 H (history ops)) /\ bsim (xrun tb0 ops).2 (last_bt b0 (trace0 H (history ops))).
Proof.
  induction ops as [|o ops IH] using rev_ind; [split; [constructor|done]|].
  unfold xrun. rewrite fold_left_app. cbn [fold_left]. fold (xrun tb0 ops). destruct (xrun tb0 ops) as [tr b] eqn:E. cbn [fst snd] in IH. destruct IH as [A B].
  rewrite history_app. change (history [o]) with (op_sets o ++ []). rewrite app_nil_r.
  assert (Len : length tr = length (history ops)) by (rewrite (Forall2_length _ _ _ A), trace0_length; done).
  assert (G : forall sets, Forall2 vsim (tr ++ trn tr b sets) (trace0 H (history ops ++ sets)) /\ bsim (last_bt b (trn tr b sets)) (last_bt b0 (trace0 H (history ops ++ sets)))).
  { intros sets. unfold trn. case_decide as D.
    - subst tr. symmetry in Len. apply length_zero_iff_nil in Len. rewrite Len in *. cbn [app]. cbn in B. split.
      + apply Forall2_same_length_lookup. split; [done|]. intros i x y E1 E2. rewrite E1 in E2. injection E2 as ->. done.
      + unfold last_bt. destruct (last (trace0 H sets)); [split; done|done].
    - destruct (decide (history ops = [])) as [Eh|Eh]; [rewrite Eh in Len; by apply length_zero_iff_nil in Len|].
      rewrite trace0_app by done. rewrite Len. 
      destruct (trace_sim sets (N.of_nat (length (history ops))) (rekey (N.of_nat (length (history ops)) - 1) b) (last_bt b0 (trace0 H (history ops)))) as [C F].
      { eapply bsim_trans; [apply rekey_sim|done]. }
      set (t1 := trace H _ (rekey _ _) sets) in *. set (t2 := trace H _ (last_bt _ _) sets) in *.
      pose proof (Forall2_length _ _ _ C) as Lt.
      split; [by apply Forall2_app|]. clearbody t1 t2. clear -B F Lt. unfold last_bt in F |- *. rewrite last_app.
      destruct (last t1) as [x|] eqn:E1, (last t2) as [y|] eqn:E2; [done| | |exact B].
      + apply last_None in E2. subst t2. destruct t1; done.
      + apply last_None in E1. subst t1. destruct t2; done. }
  destruct o as [sets|sets|l]; [apply G..|]. cbn [DriverFacts.xop op_sets fst snd]. rewrite app_nil_r. done.
Qed.
Lemma vsim_nodes x y nk nd : vsim x y -> nodes_of x nk nd -> nodes_of y nk nd.
Proof.
  intros (E1 & E2 & E3) (A & -> & C). split; [congruence|]. split.
  - apply node_at_ext; [by rewrite E2|]. intros _ n _. apply E3. intros E. by apply app_eq_nil in E as [_ ?].
  - destruct C as [C|[C1 C2]]; [by left|]. destruct (decide (nk.2 = [])) as [|Hq]; [by left|]. right. rewrite <- E2, <- E3, <- E1 by done. done.
Qed.
Lemma vsim_sym x y : vsim x y -> vsim y x.
Proof. intros (E1 & E2 & E3). split; [done|]. split; [done|]. intros q Hq. by rewrite E3. Qed.

(** *** segments of the trace *)
Lemma xrun_app tb ops more : xrun tb (ops ++ more) = xrun (xrun tb ops) more.
Proof. apply fold_left_app. Qed.
Lemma xop_prefix tb o : exists l, (xop tb o).1 = tb.1 ++ l.
Proof. destruct o; cbn; [eauto..|exists []; by rewrite app_nil_r]. Qed.
Lemma xrun_prefix ops : forall tb, exists l, (xrun tb ops).1 = tb.1 ++ l.
Proof.
  induction ops as [|o ops IH]; intros tb; [exists []; cbn; by rewrite app_nil_r|]. cbn. destruct (IH (xop tb o)) as [l E]. unfold xrun in E. rewrite E.
  destruct (xop_prefix tb o) as [l' ->]. exists (l' ++ l). by rewrite app_assoc.
Qed.
Lemma outs_at ops : forall tb hist xs i x, outs_ok tb hist ops xs -> xs !! i = Some x ->
  exists o, ops !! i = Some o /\ out_ok (xrun tb (take i ops)) (hist ++ history (take i ops)) o x.
Proof.
  induction ops as [|o ops IH]; intros tb hist [|x0 xs] [|i] x; cbn [DriverFacts.outs_ok lookup list_lookup take]; try done.
  - intros [O _] [= <-]. exists o. split; [done|]. cbn. rewrite app_nil_r. done.
  - intros [_ R] E. destruct (IH _ _ _ _ _ R E) as (o' & E1 & E2). exists o'. split; [done|]. cbn [history flat_map xrun fold_left]. rewrite app_assoc. exact E2.
Qed.
Lemma out_batch_ok tb hist o x bt : out_ok tb hist o x -> out_batch x = Some bt ->
  batch_ok H (trn tb.1 tb.2 (op_sets o)) (N.of_nat (length hist)) (op_sets o) bt /\ (xop tb o).1 = tb.1 ++ trn tb.1 tb.2 (op_sets o).
Proof.
  destruct o, x; cbn; try done.
  - intros [_ B] [= <-]. done.
  - intros (? & _ & _ & B) [= <-]. done.
Qed.
End f2.
