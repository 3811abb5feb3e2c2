(** The value history of the store. *)
From Verif Require Import Base Spec TreeCache Mock KeyOrder ProofFacts VersionFacts.
From Coq Require Import Lia Sorted.

Definition vlt (a b : version * option value) : Prop := (a.1 < b.1)%N.
(** writes to [k] in a history whose first set has version [v] *)
Fixpoint hl (v : version) (hist : list wset) (k : key) : list (version * option value) :=
  match hist with
  | [] => []
  | s :: l => match last_write s k with Some x => (v, x) :: hl (v + 1) l k | None => hl (v + 1) l k end
  end.
Lemma hl_app v a b k : hl v (a ++ b) k = hl v a k ++ hl (v + N.of_nat (length a)) b k.
Proof.
  revert v. induction a as [|s a IH]; intros v; cbn; [by rewrite N.add_0_r|]. rewrite IH.
  replace (v + 1 + N.of_nat (length a))%N with (v + N.pos (Pos.of_succ_nat (length a)))%N by lia. by destruct (last_write s k).
Qed.
Lemma elem_of_hl hist : forall v k w x, (w, x) ∈ hl v hist k <-> exists i s, hist !! i = Some s /\ w = (v + N.of_nat i)%N /\ last_write s k = Some x.
Proof.
  induction hist as [|s hist IH]; intros v k w x; cbn.
  - split; [by intros ?%elem_of_nil|]. intros (i & s & E & _). by rewrite lookup_nil in E.
  - assert (G : (w, x) ∈ hl (v + 1) hist k <-> exists i s', (s :: hist) !! (S i) = Some s' /\ w = (v + N.of_nat (S i))%N /\ last_write s' k = Some x).
    { rewrite IH. cbn. split; intros (i & s' & E1 & E2 & E3); exists i, s'; (split; [done|]); (split; [lia|done]). }
    destruct (last_write s k) as [y|] eqn:Ls.
    + rewrite elem_of_cons, G. split.
      * intros [[= -> ->]|(i & s' & E)]; [|by exists (S i), s']. exists 0, s. split; [done|]. split; [lia|done].
      * intros ([|i] & s' & E1 & E2 & E3); [left|right; eauto]. injection E1 as <-. rewrite Ls in E3. injection E3 as <-. f_equal. lia.
    + rewrite G. split; [intros (i & s' & E); by exists (S i), s'|].
      intros ([|i] & s' & E1 & E2 & E3); [|eauto]. injection E1 as <-. congruence.
Qed.
Lemma hl_sorted hist : forall v k, StronglySorted vlt (hl v hist k).
Proof.
  induction hist as [|s hist IH]; intros v k; cbn; [constructor|]. destruct (last_write s k) as [y|]; [|done].
  constructor; [done|]. apply Forall_forall. intros [w x] E. apply elem_of_hl in E as (i & s' & _ & -> & _). unfold vlt. cbn. lia.
Qed.
Lemma hl_lt hist v k w x : (w, x) ∈ hl v hist k -> (v <= w < v + N.of_nat (length hist))%N.
Proof. intros (i & s & E & -> & _)%elem_of_hl. apply lookup_lt_Some in E. lia. Qed.

Global Instance vlt_antisymm : AntiSymm (=) vlt.
Proof. intros a b. unfold vlt. lia. Qed.
Lemma vlt_nodup l : StronglySorted vlt l -> NoDup l.
Proof.
  induction 1 as [|a l S IH F]; constructor; [|done]. intros E. rewrite Forall_forall in F. specialize (F _ E). unfold vlt in F. lia.
Qed.
Lemma vlt_unique l1 l2 : StronglySorted vlt l1 -> StronglySorted vlt l2 -> (forall a, a ∈ l1 <-> a ∈ l2) -> l1 = l2.
Proof.
  intros S1 S2 E. apply (StronglySorted_unique vlt); [done|done|]. apply NoDup_Permutation; [by apply vlt_nodup..|done].
Qed.

(** the sublist of one key *)
Definition kl (l : list ((version * key) * option value)) (k : key) : list (version * option value) :=
  omap (fun e => if decide (e.1.2 = k) then Some (e.1.1, e.2) else None) l.
Lemma elem_of_kl l k w x : (w, x) ∈ kl l k <-> ((w, k), x) ∈ l.
Proof.
  unfold kl. rewrite elem_of_list_omap. split.
  - intros ([[v k'] y] & E & D). cbn in D. case_decide; [|done]. subst. by injection D as -> ->.
  - intros E. eexists. split; [exact E|]. cbn. by rewrite decide_True.
Qed.
Lemma kl_sorted l k : StronglySorted vk_le l -> NoDup (l.*1) -> StronglySorted vlt (kl l k).
Proof.
  intros S. induction S as [|[[v k'] x] l S IH F]; cbn; [constructor|]. intros N. apply NoDup_cons in N as [N1 N2].
  case_decide as D; [|by apply IH]. subst k'. constructor; [by apply IH|]. apply Forall_forall. intros [w y] E%elem_of_kl.
  rewrite Forall_forall in F. specialize (F _ E). apply vk_le_spec in F. cbn in F. unfold vlt. cbn. destruct F as [F|[-> _]]; [done|].
  exfalso. apply N1. apply elem_of_list_fmap. by exists ((w, k), y).
Qed.
Lemma sorted_values_perm m : sorted_values m ≡ₚ map_to_list m.
Proof. apply merge_sort_Permutation. Qed.
Lemma kl_sorted_values m k : StronglySorted vlt (kl (sorted_values m) k).
Proof.
  apply kl_sorted; [apply StronglySorted_merge_sort; apply _|]. rewrite sorted_values_perm. apply NoDup_fst_map_to_list.
Qed.
Lemma elem_of_sorted_values m w k x : ((w, k), x) ∈ sorted_values m <-> m !! (w, k) = Some x.
Proof. rewrite sorted_values_perm. apply elem_of_map_to_list. Qed.

(** writing a sorted list of values *)
Lemma StronglySorted_app_l {A} (R : A -> A -> Prop) l1 l2 : StronglySorted R (l1 ++ l2) -> StronglySorted R l1.
Proof.
  induction l1 as [|a l1 IH]; intros S; [constructor|]. cbn in S. apply StronglySorted_inv in S as [S F].
  constructor; [by apply IH|]. by apply Forall_app in F as [F _].
Qed.
Lemma StronglySorted_app_mid {A} (R : A -> A -> Prop) l1 a l2 b : StronglySorted R (l1 ++ a :: l2) -> b ∈ l1 -> R b a.
Proof.
  induction l1 as [|c l1 IH]; intros S E; [by apply elem_of_nil in E|]. cbn in S. apply StronglySorted_inv in S as [S F].
  apply elem_of_cons in E as [->|E]; [|by apply IH]. rewrite Forall_forall in F. apply F. apply elem_of_app. right. by left.
Qed.
Lemma put_value_hist_ok h v k x : (forall a, a ∈ default [] (h !! k) -> (a.1 < v)%N) ->
  exists h', put_value_hist h v k x = Ok h' /\ default [] (h' !! k) = default [] (h !! k) ++ [(v, x)] /\ forall k', k' <> k -> h' !! k' = h !! k'.
Proof.
  intros A. unfold put_value_hist. destruct (h !! k) as [l|] eqn:E; cbn in *.
  - destruct (rev l) as [|[w y] r] eqn:Er.
    + eexists. split; [done|]. split; [by rewrite lookup_insert|]. intros k' Hk. by rewrite lookup_insert_ne.
    + assert ((w < v)%N) as L.
      { apply (A (w, y)). apply elem_of_list_In, in_rev. rewrite Er. by left. }
      assert (N.compare v w = Gt) as -> by (by apply N.compare_gt_iff).
      eexists. split; [done|]. split; [by rewrite lookup_insert|]. intros k' Hk. by rewrite lookup_insert_ne.
  - eexists. split; [done|]. split; [by rewrite lookup_insert|]. intros k' Hk. by rewrite lookup_insert_ne.
Qed.
Lemma write_values_ok l : forall h, (forall k, StronglySorted vlt (default [] (h !! k) ++ kl l k)) ->
  exists h', write_values h l = Ok h' /\ forall k, default [] (h' !! k) = default [] (h !! k) ++ kl l k.
Proof.
  induction l as [|[[v k] x] l IH]; intros h S.
  - exists h. split; [done|]. intros k. by rewrite app_nil_r.
  - assert (Ek : kl (((v, k), x) :: l) k = (v, x) :: kl l k) by (unfold kl; cbn; by rewrite decide_True).
    assert (Eo : forall k', k' <> k -> kl (((v, k), x) :: l) k' = kl l k') by (intros k' Hk; unfold kl; cbn; rewrite decide_False; congruence).
    destruct (put_value_hist_ok h v k x) as (h1 & P1 & P2 & P3).
    { intros a Ha. specialize (S k). rewrite Ek in S. by eapply (StronglySorted_app_mid vlt) in S. }
    destruct (IH h1) as (h' & Q1 & Q2).
    { intros k'. specialize (S k'). destruct (decide (k' = k)) as [->|Hk].
      - rewrite Ek in S. by rewrite P2, <- app_assoc.
      - rewrite (Eo k' Hk) in S. by rewrite P3. }
    exists h'. split; [cbn [write_values]; by rewrite P1, bind_Ok|]. intros k'. rewrite Q2. destruct (decide (k' = k)) as [->|Hk].
    + by rewrite P2, Ek, <- app_assoc.
    + by rewrite P3, Eo.
Qed.

(** the values of a batch *)
Lemma bvals_lookup sets : forall v m w k x, (forall w' k', (v <= w')%N -> m !! (w', k') = None) ->
  bvals v sets m !! (w, k) = Some x <-> (w, x) ∈ hl v sets k \/ m !! (w, k) = Some x.
Proof.
  induction sets as [|s sets IH]; intros v m w k x F; cbn [bvals hl].
  - split; [by right|]. intros [?%elem_of_nil|?]; done.
  - assert (F2 : forall w' k', (v + 1 <= w')%N -> (vset v s ∅ ∪ m) !! (w', k') = None).
    { intros w' k' L. apply lookup_union_None. rewrite vset_lookup. rewrite decide_False by lia. split; [done|]. apply F. lia. }
    rewrite (IH _ _ _ _ _ F2).
    assert (G : (vset v s ∅ ∪ m) !! (w, k) = Some x <-> (w = v /\ last_write s k = Some x) \/ m !! (w, k) = Some x).
    { rewrite lookup_union_Some_raw, vset_lookup, lookup_empty. case_decide as D.
      - subst w. rewrite (F v k) by lia. destruct (last_write s k); naive_solver.
      - naive_solver. }
    rewrite G. destruct (last_write s k) as [y|].
    + rewrite elem_of_cons. split; [intros [?|[[-> [= ->]]|?]]; auto|]. intros [[[= -> ->]|?]|?]; auto.
    + naive_solver.
Qed.
Lemma batch_values_kl v sets k : kl (sorted_values (bvals v sets ∅)) k = hl v sets k.
Proof.
  apply vlt_unique; [apply kl_sorted_values|apply hl_sorted|]. intros [w x]. rewrite elem_of_kl, elem_of_sorted_values.
  rewrite bvals_lookup by (intros; apply lookup_empty). rewrite lookup_empty. naive_solver.
Qed.
Definition hist_ok (h : gmap key (list (version * option value))) (hist : list wset) : Prop :=
  forall k, default [] (h !! k) = hl 0 hist k.
Lemma write_batch_values h hist sets : hist_ok h hist ->
  exists h', write_values h (sorted_values (bvals (N.of_nat (length hist)) sets ∅)) = Ok h' /\ hist_ok h' (hist ++ sets).
Proof.
  intros Hh. destruct (write_values_ok (sorted_values (bvals (N.of_nat (length hist)) sets ∅)) h) as (h' & E & Q).
  { intros k. rewrite Hh, batch_values_kl. rewrite <- (N.add_0_l (N.of_nat (length hist))), <- hl_app. apply hl_sorted. }
  exists h'. split; [done|]. intros k. rewrite Q, Hh, batch_values_kl, hl_app. done.
Qed.

(** reading *)
Lemma find_value_hl hist v k : find_value v (rev (hl 0 hist k)) = contents_at hist v !! k.
Proof.
  induction hist as [|s hist IH] using rev_ind; [unfold contents_at; by rewrite take_nil|].
  rewrite hl_app, N.add_0_l. cbn [hl]. unfold contents_at, apply_sets in *.
  destruct (decide (N.to_nat v < length hist)) as [L|L].
  - rewrite take_app_le by lia. destruct (last_write s k) as [x|]; [|by rewrite app_nil_r].
    rewrite rev_app_distr. cbn [rev app find_value]. assert ((N.of_nat (length hist) <=? v)%N = false) as -> by (apply N.leb_gt; lia). done.
  - rewrite take_ge in * by (rewrite ?app_length; simpl; lia). rewrite fold_left_app. cbn [fold_left]. rewrite apply_set_lookup.
    destruct (last_write s k) as [x|]; [|by rewrite app_nil_r].
    rewrite rev_app_distr. cbn [rev app find_value]. assert ((N.of_nat (length hist) <=? v)%N = true) as -> by (apply N.leb_le; lia). done.
Qed.
Lemma store_value_hist s hist v k : hist_ok (st_history s) hist -> store_value s v k = contents_at hist v !! k.
Proof.
  intros Hh. rewrite <- find_value_hl, <- Hh. unfold store_value. destruct (st_history s !! k); done.
Qed.
