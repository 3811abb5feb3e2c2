(** Honest and arbitrary clients of the restore (RestoreDriver.v). *)
From Coq Require Import Strings.String.
From Verif Require Import Base Spec SpecOrder SpecRange NodeType ProofDef TreeCache Mock Tree Restore KeyFacts SmtFacts ProofFacts NodeFacts Canon CanonSib PutFacts KeyOrder OrderFacts ThmNode ValueFacts ReadFacts RangeFacts RestoreFacts RestoreFacts2 RestoreVerify RestoreTop RestoreRec RestoreDriver.
From Coq Require Import Lia.
Local Opaque Spec.smt.

(** initial segments of a map *)
Definition below (m X : gmap key value) : Prop :=
  X ⊆ m /\ forall k k', is_Some (X !! k) -> is_Some (m !! k') -> key_le k' k -> is_Some (X !! k').
Definition rest_of (m X : gmap key value) : list (key * value) := filter (fun e => X !! e.1 = None) (entries m).
Lemma filter_sorted (P : key * value -> Prop) `{forall e, Decision (P e)} l : StronglySorted elt l -> StronglySorted elt (filter P l).
Proof.
  induction 1 as [|a l So IH F]; [constructor|]. rewrite filter_cons. destruct (decide (P a)); [|done]. constructor; [done|].
  rewrite Forall_forall in F |- *. intros e He. apply F. apply elem_of_list_filter in He as [_ He]. done.
Qed.
Lemma sorted_app_inv l1 : forall l2, StronglySorted elt (l1 ++ l2) -> StronglySorted elt l1 /\ StronglySorted elt l2 /\ forall a b, a ∈ l1 -> b ∈ l2 -> @elt value a b.
Proof.
  induction l1 as [|a l1 IH]; intros l2 So; [split; [constructor|]; split; [done|]; intros ? ? X; by apply elem_of_nil in X|].
  cbn [app] in So. apply StronglySorted_inv in So as [So F]. destruct (IH l2 So) as (S1 & S2 & C). rewrite Forall_forall in F. split; [constructor; [done|]|split; [done|]].
  - rewrite Forall_forall. intros b Hb. apply F. apply elem_of_app. by left.
  - intros x b Hx Hb. apply elem_of_cons in Hx as [->|Hx]; [|by apply C]. apply F. apply elem_of_app. by right.
Qed.
Lemma sorted_nodup (l : list (key * value)) : StronglySorted elt l -> NoDup l.*1.
Proof.
  induction 1 as [|a l So IH F]; [constructor|]. rewrite fmap_cons. apply NoDup_cons. split; [|done]. rewrite Forall_forall in F.
  intros E. apply elem_of_list_fmap in E as (b & E & Hb). specialize (F b Hb). unfold elt in F. rewrite E in F. by apply key_lt_irrefl in F.
Qed.
Lemma fold_ins_sorted l X k : StronglySorted elt l -> fold_left ins l X !! k = match (list_to_map l : gmap key value) !! k with Some x => Some x | None => X !! k end.
Proof. intros So. by apply fold_ins_lookup, sorted_nodup. Qed.
Lemma fold_ins_Some l X k x : StronglySorted elt l -> (forall e, e ∈ l -> X !! e.1 = None) -> fold_left ins l X !! k = Some x <-> (k, x) ∈ l \/ X !! k = Some x.
Proof.
  intros So N. rewrite fold_ins_sorted by done. destruct ((list_to_map l : gmap key value) !! k) as [y|] eqn:E.
  - apply elem_of_list_to_map_2 in E as E2. split.
    + intros [= ->]. by left.
    + intros [Hx|Hx].
      * f_equal. apply elem_of_list_to_map in E2; [|by apply sorted_nodup]. apply elem_of_list_to_map in Hx; [|by apply sorted_nodup]. congruence.
      * specialize (N _ E2). cbn in N. congruence.
  - apply not_elem_of_list_to_map in E. split; [by right|]. intros [Hx|Hx]; [|done]. destruct E. apply elem_of_list_fmap. by exists (k, x).
Qed.
Lemma rest_sorted m X : StronglySorted elt (rest_of m X).
Proof. apply filter_sorted, entries_sorted. Qed.
Lemma rest_elem m X k x : (k, x) ∈ rest_of m X <-> m !! k = Some x /\ X !! k = None.
Proof. unfold rest_of. rewrite elem_of_list_filter, entries_elem. cbn. tauto. Qed.
Lemma rest_unique m X l : StronglySorted elt l -> (forall k x, (k, x) ∈ l <-> m !! k = Some x /\ X !! k = None) -> l = rest_of m X.
Proof. intros So E. apply elt_unique; [done|apply rest_sorted|]. intros [k x]. by rewrite E, rest_elem. Qed.
Lemma rest_step m X c d : below m X -> rest_of m X = c ++ d -> below m (fold_left ins c X) /\ rest_of m (fold_left ins c X) = d.
Proof.
  intros [B1 B2] E. pose proof (rest_sorted m X) as So. rewrite E in So. apply sorted_app_inv in So as (Sc & Sd & Cd).
  assert (Nc : forall e, e ∈ c -> X !! e.1 = None) by (intros [k x] He; apply (rest_elem m X k x); rewrite E; apply elem_of_app; by left).
  assert (Cm : forall k x, (k, x) ∈ c -> m !! k = Some x) by (intros k x He; apply (rest_elem m X k x); rewrite E; apply elem_of_app; by left).
  split; [split|].
  - apply map_subseteq_spec. intros k x Hx. apply fold_ins_Some in Hx as [Hx|Hx]; [by apply Cm| |done|done]. eapply lookup_weaken; done.
  - intros k k' [x Hx] [y Hy] Le. apply fold_ins_Some in Hx; [|done|done].
    destruct (X !! k') as [z|] eqn:Ez; [exists z; apply fold_ins_Some; auto|]. destruct Hx as [Hx|Hx]; [|destruct (B2 k k') as [? ?]; [eauto|eauto|done|congruence]].
    assert (R : (k', y) ∈ c ++ d) by (rewrite <- E; by apply rest_elem). apply elem_of_app in R as [R|R]; [exists y; apply fold_ins_Some; auto|].
    exfalso. specialize (Cd _ _ Hx R). unfold elt in Cd. cbn in Cd. by apply key_lt_not_le in Cd.
  - symmetry. apply rest_unique; [done|]. intros k x. split.
    + intros Hx. assert (R : (k, x) ∈ rest_of m X) by (rewrite E; apply elem_of_app; by right). apply rest_elem in R as [R1 R2]. split; [done|].
      destruct (fold_left ins c X !! k) as [y|] eqn:Ey; [|done]. apply fold_ins_Some in Ey as [Ey|Ey]; [|congruence|done|done].
      specialize (Cd _ _ Ey Hx). unfold elt in Cd. cbn in Cd. by apply key_lt_irrefl in Cd.
    + intros [Hm Hn]. assert (Xn : X !! k = None). { destruct (X !! k) as [y|] eqn:Ey; [|done]. assert (fold_left ins c X !! k = Some y) by (apply fold_ins_Some; auto). congruence. }
      assert (R : (k, x) ∈ c ++ d) by (rewrite <- E; by apply rest_elem). apply elem_of_app in R as [R|R]; [|done].
      assert (fold_left ins c X !! k = Some x) by (apply fold_ins_Some; auto). congruence.
Qed.
Lemma below_upto m X k : below m X -> is_Some (X !! k) -> (forall k' x', X !! k' = Some x' -> key_le k' k) -> upto m X k.
Proof.
  intros [B1 B2] Xk M k'. destruct (decide (key_le k' k)) as [Le|N].
  - destruct (X !! k') as [x|] eqn:E; [symmetry; eapply lookup_weaken; done|]. destruct (m !! k') as [y|] eqn:Em; [|done]. destruct (B2 k k') as [? ?]; [done|eauto|done|congruence].
  - destruct (X !! k') as [x|] eqn:E; [|done]. by apply M in E.
Qed.
Lemma upto_below m X k : upto m X k -> below m X.
Proof.
  intros Up. split.
  - apply map_subseteq_spec. intros k' x E. rewrite Up in E. by destruct (decide (key_le k' k)).
  - intros k1 k2 [x E1] E2 Le. rewrite Up in E1. destruct (decide (key_le k1 k)) as [L1|]; [|done]. rewrite Up, decide_True; [done|by etrans].
Qed.
Lemma below_delete m X k : below m X -> (forall k' x', X !! k' = Some x' -> key_le k' k) -> below m (delete k X).
Proof.
  intros [B1 B2] M. split; [etrans; [apply delete_subseteq|done]|]. intros k1 k2 [x E1] E2 Le. apply lookup_delete_Some in E1 as [N1 E1].
  destruct (B2 k1 k2) as [y Ey]; [eauto|done|done|]. exists y. apply lookup_delete_Some. split; [|done]. intros <-. apply N1. apply key_le_antisym; [done|]. by eapply M.
Qed.
Lemma below_all m X : below m X -> rest_of m X = [] -> X = m.
Proof.
  intros [B1 _] E. apply map_eq. intros k. apply option_eq. intros x. split; [intros Ex; eapply lookup_weaken; done|]. intros Em. destruct (X !! k) as [y|] eqn:Ey.
  - pose proof (lookup_weaken _ _ _ _ Ey B1). congruence.
  - assert (Z : (k, x) ∈ rest_of m X) by (by apply rest_elem). rewrite E in Z. by apply elem_of_nil in Z.
Qed.
Lemma below_empty m : below m ∅.
Proof. split; [apply map_empty_subseteq|]. intros k k' [? E]. by rewrite lookup_empty in E. Qed.
Lemma rest_empty m : rest_of m ∅ = entries m.
Proof. symmetry. apply rest_unique; [apply entries_sorted|]. intros k x. rewrite entries_elem, lookup_empty. tauto. Qed.
Lemma fold_ins_union l : forall W X, fold_left ins l (W ∪ X) = fold_left ins l W ∪ X.
Proof. induction l as [|e l IH]; intros W X; [done|]. cbn [fold_left]. rewrite <- IH. f_equal. unfold ins. by rewrite insert_union_l. Qed.

Section run.
Context (H : list byte -> bytes32) (v : version) (m : gmap key value).
Implicit Types (X Y W : gmap key value) (q : list nibble).
(** the store after the last accepted chunk, holding the values [Y] *)
Definition sgood (s : store) Y : Prop :=
  (Y = ∅ /\ st_nodes s = ∅ /\ st_history s = ∅) \/
  exists rs k, live H v True rs Y k /\ rs_fnodes rs = ∅ /\ vals v rs ∅ Y /\ rs_store rs = s /\ upto m Y k.
(** a new object, expecting [k0] *)
Definition expects q (k0 : key) X : Prop := exists n, (q ++ [n]) `prefix_of` key_nibbles k0 /\ U (q ++ [n]) (H <$> X) = ∅.

Lemma rightmost_none s : st_nodes s = ∅ -> store_rightmost s = None.
Proof. intros E. unfold store_rightmost. by rewrite E, map_to_list_empty. Qed.
Lemma restore_new_prev s root rs : restore_new H s v root = Ok rs -> rs_prev rs = snd <$> store_rightmost s /\ rs_root rs = root.
Proof.
  unfold restore_new. destruct (store_rightmost s) as [[nk l]|]; [|intros [= <-]; done].
  destruct (recover_partial_nodes H s v nk) as [ps| |]; [rewrite bind_Ok|done|done]. intros [= <-]. done.
Qed.
(** [k0] is the next key (when there is one) *)
Definition next_entry X (k0 : key) (x0 : value) : Prop := X !! k0 = None /\ (m = ∅ \/ exists d, rest_of m X = (k0, x0) :: d).
Lemma next_rest X d k0 x0 : rest_of m X = (k0, x0) :: d -> next_entry X k0 x0.
Proof. intros E. split; [|by right; exists d]. assert (Z : (k0, x0) ∈ rest_of m X) by (rewrite E; by left). by apply rest_elem in Z as [_ ?]. Qed.
Lemma reopen_ok s Y root : sgood s Y -> exists rs X q k0 x0, restore_new H s v root = Ok rs /\ idle H v True rs X q /\ vals v rs ∅ Y /\
  rs_root rs = root /\ rs_store rs = s /\ below m X /\ next_entry X k0 x0 /\ (Y = X \/ Y = <[ k0 := x0 ]> X) /\ expects q k0 X /\
  X = match rs_prev rs with None => ∅ | Some l => filter (fun kx => key_ltb (ln_key l) kx.1 = false) Y end.
Proof.
  intros [(-> & En & Eh)|(rs0 & k & L & Ef & V & Es & Up)].
  - unfold restore_new. rewrite rightmost_none by done.
    assert (Er : exists k0 x0, next_entry ∅ k0 x0).
    { destruct (entries m) as [|[k0 x0] d] eqn:E; [|exists k0, x0; apply (next_rest _ d); by rewrite rest_empty]. pose proof (entries_length m) as Le. rewrite E in Le.
      exists SPARSE_MERKLE_PLACEHOLDER_HASH, []. split; [done|]. left. by apply map_size_empty_inv. }
    destruct Er as (k0 & x0 & Er). eexists _, ∅, [], k0, x0. split; [done|]. split; [|split; [|split; [done|split; [done|split; [apply below_empty|split; [done|split; [by left|split; [|done]]]]]]]].
    + split; [|done]. split; [done|cbn; lia| |done|intros _; cbn; apply map_disjoint_empty_l|].
      * split; [done|]. intros j i Ei. apply list_lookup_singleton_Some in Ei as [-> <-]. split; [done|]. intros n. cbn [ii_empty ii_children take app]. rewrite lookup_empty, decide_False by done.
        symmetry. apply cinfo_is_none. by rewrite fmap_empty, U_none.
      * intros _ w p nd. unfold all_nodes. cbn [rs_fnodes rs_store]. rewrite En, (left_id_L ∅ (∪)), lookup_empty. split; [done|]. intros (_ & ((O & _) & _) & _). by rewrite fmap_empty, U_none in O.
    + split; cbn; [unfold fvals; by rewrite fmap_empty, kmap_empty|]. rewrite Eh. unfold hist1. by rewrite fmap_empty.
    + destruct (prefix_next [] k0 (prefix_nil _) ltac:(cbn; lia)) as [n Pn]. exists n. split; [done|]. by rewrite fmap_empty, U_none.
  - destruct (restore_new_ok H v rs0 Y Y k root L Ef V) as (rs & q & n & En & Id & V' & Rr & Rs & Pn & Un). rewrite Es in *.
    destruct (lv_prev _ _ _ _ _ _ L) as (xk & Ek & _). pose proof (lv_max _ _ _ _ _ _ L) as Mx.
    assert (Bd : below m (delete k Y)) by (apply below_delete; [by eapply upto_below|done]).
    assert (Er : exists d, rest_of m (delete k Y) = (k, xk) :: d).
    { destruct (rest_of m (delete k Y)) as [|[k0 x0] d] eqn:E.
      - exfalso. assert (Z : (k, xk) ∈ rest_of m (delete k Y)) by (apply rest_elem; split; [rewrite Up in Ek; by destruct (decide (key_le k k))|apply lookup_delete]). rewrite E in Z. by apply elem_of_nil in Z.
      - exists d. f_equal. assert (Z : (k0, x0) ∈ rest_of m (delete k Y)) by (rewrite E; by left). apply rest_elem in Z as [Z1 Z2].
        assert (Zk : (k, xk) ∈ rest_of m (delete k Y)) by (apply rest_elem; split; [rewrite Up in Ek; by destruct (decide (key_le k k))|apply lookup_delete]).
        pose proof (rest_sorted m (delete k Y)) as So. rewrite E in So, Zk. apply StronglySorted_inv in So as [_ F]. apply elem_of_cons in Zk as [[= -> ->]|Zk]; [done|].
        rewrite Forall_forall in F. specialize (F _ Zk). unfold elt in F. cbn in F. exfalso. apply lookup_delete_None in Z2 as [->|Z2]; [by apply key_lt_irrefl in F|].
        rewrite Up, decide_True in Z2 by (by right). congruence. }
    destruct Er as [d Er]. apply next_rest in Er. exists rs, (delete k Y), q, k, xk. split; [done|]. split; [done|]. split; [done|]. split; [done|]. split; [done|]. split; [done|]. split; [done|].
    split; [right; by rewrite insert_delete|]. split; [by exists n|].
    destruct Id as (_ & _ & _ & Pv). destruct (rs_prev rs) as [l|]; [|done]. destruct Pv as [[xl Xl] Ml]. apply map_eq. intros k'. apply option_eq. intros x'. rewrite map_filter_lookup_Some, lookup_delete_Some. cbn.
    rewrite key_ltb_ge. split.
    + intros [Nk Ey]. split; [done|]. apply (Ml k' x'). by apply lookup_delete_Some.
    + intros [Ey Le]. split; [|done]. intros <-. apply lookup_delete_Some in Xl as [Nl El]. apply Nl. apply key_le_antisym; [done|]. by eapply Mx.
Qed.

Lemma RI_imp (g g' : Prop) rs S q ex : (g' -> g) -> RI H v g rs S q ex -> RI H v g' rs S q ex.
Proof. intros G I. split; [apply (ri_version I)|apply (ri_len I)|apply (ri_chain I)|apply (ri_rmost I)|intros ?; by apply (ri_disj I), G|intros ?; by apply (ri_nodes I), G]. Qed.
Lemma live_imp (g g' : Prop) rs X k : (g' -> g) -> live H v g rs X k -> live H v g' rs X k.
Proof. intros G [(q & c & I & E & T) P M N]. split; [|done..]. exists q, c. split; [|done]. by eapply RI_imp. Qed.

Definition step_last (k : key) (t : list (key * value)) : key := match last t with Some e => e.1 | None => k end.
Lemma step_last_cons k e t : step_last k (e :: t) = step_last e.1 t.
Proof. unfold step_last. destruct t as [|e' t]; [done|]. change (last (e :: e' :: t)) with (last (e' :: t)). destruct (last (e' :: t)) eqn:E; [done|]. by apply last_None in E. Qed.
Lemma taken_cons k k2 x c : key_lt k k2 -> taken (Some k) ((k2, x) :: c) = (k2, x) :: taken (Some k2) c.
Proof. intros L. cbn. by rewrite (proj2 (key_ltb_lt _ _) L). Qed.
Lemma taken_sorted c : forall k, StronglySorted elt (taken (Some k) c) /\ forall e, e ∈ taken (Some k) c -> key_lt k e.1.
Proof.
  induction c as [|[k2 x] c IH]; intros k; [split; [constructor|intros ? X; by apply elem_of_nil in X]|]. cbn. destruct (key_ltb k k2) eqn:E; [|split; [constructor|intros ? X; by apply elem_of_nil in X]].
  apply key_ltb_lt in E. destruct (IH k2) as [S L]. split.
  - constructor; [done|]. rewrite Forall_forall. intros e He. apply (L e). first [done|by apply elem_of_list_In].
  - intros e He. apply elem_of_cons in He as [->|He]; [done|]. eapply key_lt_trans; [exact E|by apply L].
Qed.
Lemma taken_sorted_all l : forall k, StronglySorted elt l -> (forall e, e ∈ l -> key_lt k e.1) -> taken (Some k) l = l.
Proof.
  induction l as [|[k2 x] l IH]; intros k So L; [done|]. apply StronglySorted_inv in So as [So F]. rewrite taken_cons by (apply (L (k2, x)); by left). f_equal. apply IH; [done|].
  intros e He. rewrite Forall_forall in F. apply (F e). first [done|by apply elem_of_list_In].
Qed.
Lemma push_chunk_any g chunk : forall rs X W Y k, live H v g rs X k -> vals v rs W Y -> let t := taken (Some k) chunk in
  exists rs' e, push_chunk H rs chunk = Ok (rs', e) /\ live H v g rs' (fold_left ins t X) (step_last k t) /\ vals v rs' (fold_left ins t W) Y /\
    rs_store rs' = rs_store rs /\ rs_root rs' = rs_root rs /\ (e = None <-> t = chunk).
Proof.
  induction chunk as [|[k2 x] chunk IH]; intros rs X W Y k L V t.
  - by exists rs, None.
  - cbn [push_chunk]. unfold in_order. destruct (lv_prev _ _ _ _ _ _ L) as (y & _ & Ep). rewrite Ep. cbn [ln_key]. unfold t. destruct (key_ltb k k2) eqn:Elt.
    + apply key_ltb_lt in Elt. rewrite taken_cons by done. destruct (push_live H v g rs X W Y k k2 x L V Elt) as (rs1 & -> & L1 & V1 & S1 & R1). rewrite bind_Ok.
      destruct (IH rs1 _ _ _ _ L1 V1) as (rs2 & e & E & L2 & V2 & S2 & R2 & T2). exists rs2, e. split; [done|]. rewrite step_last_cons. cbn [fst fold_left]. split; [done|]. split; [done|].
      split; [congruence|]. split; [congruence|]. rewrite T2. split; [by intros ->|by intros [= ->]].
    + cbn [taken]. rewrite Elt. exists rs. eexists. split; [done|]. cbn. done.
Qed.
(** what an object holds: [X] the entries, [Y] the values in the store *)
Definition fresh_obj rs X Y : Prop := exists q k0 x0, idle H v True rs X q /\ vals v rs ∅ Y /\ below m X /\ next_entry X k0 x0 /\ (Y = X \/ Y = <[ k0 := x0 ]> X) /\ expects q k0 X.
Definition used_obj rs X Y : Prop := exists g W k X0, live H v g rs X k /\ vals v rs W Y /\ X = W ∪ X0 /\ X0 ⊆ Y /\ (upto m X k -> g /\ Y ⊆ X).
Definition obj rs X Y : Prop := rs_root rs = smt_root H m /\ sgood (rs_store rs) Y /\ (fresh_obj rs X Y \/ used_obj rs X Y).
(** an object that has just accepted a chunk *)
Definition synced rs X k : Prop := rs_root rs = smt_root H m /\ live H v True rs X k /\ rs_fnodes rs = ∅ /\ vals v rs ∅ X /\ upto m X k.
Lemma synced_obj rs X k : synced rs X k -> obj rs X X.
Proof.
  intros (R & L & F & V & Up). split; [done|]. split; [right; by exists rs, k|]. right. exists True, ∅, k, X. split; [done|]. split; [done|]. by rewrite (left_id_L ∅ (∪)).
Qed.
Lemma upto_prefix X t k : upto m (fold_left ins t X) (step_last k t) -> StronglySorted elt t -> (forall e, e ∈ t -> key_lt k e.1) -> (forall k' x', X !! k' = Some x' -> key_le k' k) ->
  upto m X k /\ X ⊆ fold_left ins t X.
Proof.
  intros Up So Lt Mx. assert (N : forall e, e ∈ t -> X !! e.1 = None).
  { intros e He. destruct (X !! e.1) eqn:E; [|done]. apply Mx in E. apply Lt in He. by apply key_lt_not_le in He. }
  assert (Lk : key_le k (step_last k t)).
  { unfold step_last. destruct (last t) as [e|] eqn:E; [|by left]. right. apply Lt. apply last_Some in E as [l' ->]. apply elem_of_app. right. by left. }
  split.
  - intros k'. destruct (decide (key_le k' k)) as [Le|Nl].
    + specialize (Up k'). rewrite decide_True in Up by (by etrans). rewrite <- Up. rewrite fold_ins_sorted by done. destruct ((list_to_map t : gmap key value) !! k') eqn:E; [|done].
      apply elem_of_list_to_map_2 in E. apply Lt in E. by apply key_lt_not_le in E.
    + destruct (X !! k') eqn:E; [|done]. by apply Mx in E.
  - apply map_subseteq_spec. intros k' x' E. apply fold_ins_Some; auto.
Qed.
Definition last_key (prev : option key) (t : list (key * value)) : option key := match last t with Some e => Some e.1 | None => prev end.
Lemma last_key_step k t : last_key (Some k) t = Some (step_last k t).
Proof. unfold last_key, step_last. by destruct (last t). Qed.
Lemma last_key_cons prev e t : last_key prev (e :: t) = last_key (Some e.1) t.
Proof. unfold last_key. destruct t as [|e' t]; [done|]. change (last (e :: e' :: t)) with (last (e' :: t)). destruct (last (e' :: t)) eqn:E; [done|]. by apply last_None in E. Qed.
(** the keys of a chunk, given to any object *)
Lemma push_obj rs X Y chunk r : chunk <> [] -> obj rs X Y -> push_chunk H rs chunk = Ok r -> let t := taken (ln_key <$> rs_prev rs) chunk in
  rs_root r.1 = rs_root rs /\ rs_store r.1 = rs_store rs /\ (r.2 = None -> t = chunk) /\ obj r.1 (fold_left ins t X) Y /\ (r.2 = None -> used_obj r.1 (fold_left ins t X) Y) /\
  ln_key <$> rs_prev r.1 = last_key (ln_key <$> rs_prev rs) t.
Proof.
  intros Nc (R & G & [F|U]) E t.
  - destruct F as (q & k0 & x0 & Id & V & B & Er & Ey & (n & Pn & Un)). destruct chunk as [|[k1 x1] chunk]; [done|]. clear Nc. cbn [push_chunk] in E.
    destruct (in_order rs k1) eqn:Ei.
    2:{ injection E as <-. cbn [fst snd]. unfold t, taken. unfold in_order in Ei. destruct (rs_prev rs) as [l|] eqn:Ep; [|done]. cbn. rewrite Ei. split; [done|]. split; [done|]. split; [done|].
        split; [|split; [done|cbn; by rewrite ?Ep]]. split; [done|]. split; [done|]. left. exists q, k0, x0. split; [done|]. split; [done|]. split; [done|]. split; [done|]. split; [done|]. by exists n. }
    assert (Bf : before (H <$> X) k1).
    { intros k' h' E'. rewrite lookup_fmap in E'. destruct (X !! k') as [x'|] eqn:Ex; [|done]. destruct Id as (_ & _ & _ & Pv). unfold in_order in Ei. destruct (rs_prev rs) as [l|]; [|by rewrite Pv in Ex].
      apply key_ltb_lt in Ei. destruct Pv as [_ Ml]. destruct (Ml _ _ Ex) as [->|Lt]; [done|]. by eapply key_lt_trans. }
    destruct (push_key H rs k1 x1) as [rs1| |] eqn:Ek; [|done|done]. rewrite bind_Ok in E.
    assert (P : live H v (k1 = k0) rs1 (<[ k1 := x1 ]> X) k1 /\ vals v rs1 {[ k1 := x1 ]} Y /\ rs_store rs1 = rs_store rs /\ rs_root rs1 = rs_root rs).
    { destruct (decide (k1 = k0)) as [->|Ne].
      - destruct (push_idle H v True rs X ∅ Y q n k0 x1 Id V Bf Pn Un) as (rs2 & E2 & L2 & V2 & S2 & R2). rewrite Ek in E2. injection E2 as <-. split; [by eapply live_imp; [|exact L2]|]. split; [done|]. done.
      - destruct (push_idle_any H v True rs X ∅ Y q k1 x1 rs1 Id V Bf Ek) as (rs2 & E2 & L2 & V2 & S2 & R2). rewrite Ek in E2. injection E2 as <-. split; [by eapply live_imp; [|exact L2]|]. split; [done|]. done. }
    destruct P as (L1 & V1 & S1 & R1). destruct (push_chunk_any _ chunk rs1 _ _ _ _ L1 V1) as (rs2 & e & E2 & L2 & V2 & S2 & R2 & T2). rewrite E in E2. injection E2 as ->. cbn [fst snd].
    assert (Et : t = (k1, x1) :: taken (Some k1) chunk). { unfold t. cbn. unfold in_order in Ei. destruct (rs_prev rs) as [l|]; cbn; [by rewrite Ei|done]. }
    assert (Us : used_obj rs2 (fold_left ins t X) Y).
    { exists (k1 = k0), (fold_left ins (taken (Some k1) chunk) {[ k1 := x1 ]}), (step_last k1 (taken (Some k1) chunk)), X. rewrite Et. cbn [fold_left]. change (ins X (k1, x1)) with (<[ k1 := x1 ]> X).
      split; [done|]. split; [done|]. split; [|split].
      - by rewrite <- fold_ins_union, <- insert_union_singleton_l.
      - destruct Ey as [->| ->]; [done|]. apply insert_subseteq. apply Er.
      - destruct (taken_sorted chunk k1) as [So Lt]. intros Up. destruct (upto_prefix _ _ _ Up So Lt (lv_max _ _ _ _ _ _ L1)) as [Up1 Sub].
        pose proof (Up1 k1) as E1. rewrite lookup_insert, decide_True in E1 by (by left).
        assert (X1 : X !! k1 = None). { apply before_notin in Bf. rewrite lookup_fmap in Bf. by destruct (X !! k1). }
        destruct Er as [Z2 [Me|[d Er]]]; [by rewrite Me in E1|]. assert (Z : (k0, x0) ∈ rest_of m X) by (rewrite Er; by left). apply rest_elem in Z as [Z1 _].
        assert (Z3 : (k1, x1) ∈ rest_of m X) by (by apply rest_elem). pose proof (rest_sorted m X) as Sr. rewrite Er in Z3, Sr. apply StronglySorted_inv in Sr as [_ Fr]. rewrite Forall_forall in Fr.
        assert (k1 = k0) as ->. { apply elem_of_cons in Z3 as [[= -> ->]|Z3]; [done|]. specialize (Fr _ Z3). unfold elt in Fr. cbn in Fr. specialize (Up1 k0). rewrite decide_True in Up1 by (by right).
          rewrite Z1 in Up1. apply lookup_insert_Some in Up1 as [[-> _]|[_ Up1]]; [done|]. congruence. }
        split; [done|]. etrans; [|exact Sub]. assert (x1 = x0) as -> by congruence. destruct Ey as [->| ->]; [by apply insert_subseteq|done]. }
    split; [congruence|]. split; [congruence|]. split; [rewrite Et; intros ->; f_equal; by apply T2|]. split; [split; [congruence|]; split; [by rewrite S2, S1|by right]|]. split; [done|].
    rewrite Et, last_key_cons, last_key_step. destruct (lv_prev _ _ _ _ _ _ L2) as (? & _ & ->). done.
  - destruct U as (g & W & k & X0 & L & V & Ex & Sx & Gu). destruct (lv_prev _ _ _ _ _ _ L) as (x & Ekx & Ep). unfold t. rewrite Ep. cbn [fmap option_fmap option_map ln_key].
    destruct (push_chunk_any g chunk rs X W Y k L V) as (rs2 & e & E2 & L2 & V2 & S2 & R2 & T2). rewrite E in E2. injection E2 as ->. cbn [fst snd]. 
    assert (Us : used_obj rs2 (fold_left ins (taken (Some k) chunk) X) Y).
    { exists g, (fold_left ins (taken (Some k) chunk) W), (step_last k (taken (Some k) chunk)), X0. split; [done|]. split; [done|]. split; [rewrite Ex; apply fold_ins_union|]. split; [done|].
      destruct (taken_sorted chunk k) as [So Lt]. intros Up. destruct (upto_prefix _ _ _ Up So Lt (lv_max _ _ _ _ _ _ L)) as [Up1 Sub]. destruct (Gu Up1) as [? ?]. split; [done|]. by etrans. }
    split; [done|]. split; [done|]. split; [by intros ?; apply T2|]. split; [split; [congruence|]; split; [by rewrite S2|by right]|]. split; [done|].
    rewrite last_key_step. destruct (lv_prev _ _ _ _ _ _ L2) as (? & _ & ->). done.
Qed.

Lemma union_between W X0 X Y : X = W ∪ X0 -> X0 ⊆ Y -> Y ⊆ X -> W ∪ Y = X.
Proof.
  intros -> S1 S2. apply map_eq. intros k. rewrite !lookup_union. destruct (W !! k) as [w|] eqn:Ew; [by destruct (Y !! k), (X0 !! k)|].
  destruct (Y !! k) as [y|] eqn:Ey.
  - pose proof (lookup_weaken _ _ _ _ Ey S2) as Z. rewrite lookup_union, Ew in Z. rewrite <- Z. by destruct (X0 !! k).
  - destruct (X0 !! k) as [z|] eqn:Ez; [|done]. pose proof (lookup_weaken _ _ _ _ Ez S1). congruence.
Qed.
Lemma add_obj ovf rs X Y chunk p rs' e : obj rs X Y -> add_chunk H ovf rs chunk p = Ok (rs', e) -> let t := taken (ln_key <$> rs_prev rs) chunk in
  let X' := fold_left ins t X in ln_key <$> rs_prev rs' = last_key (ln_key <$> rs_prev rs) t /\
  match e with
  | Some _ => obj rs' X' Y /\ rs_store rs' = rs_store rs
  | None => t = chunk /\ ((exists k, synced rs' X' k) \/ hash_broken H (root_inputs H m ++ chunk_inputs H X' (last_key (ln_key <$> rs_prev rs) t) p))
  end.
Proof.
  intros O E t X'. destruct (decide (chunk = [])) as [Ec|Nc]; [unfold X', t; clear t X'; subst chunk; injection E as <- <-; done|].
  assert (E' : ('(rs, e) ← push_chunk H rs chunk; match e with Some e => Ok (rs, Some e) | None => match rverify H ovf rs p with Ok _ => flush rs | Err e => Ok (rs, Some e) | Panic => Panic end end) = Ok (rs', e)).
  { unfold add_chunk in E. by destruct chunk. }
  clear E. rename E' into E.
  destruct (push_chunk H rs chunk) as [r| |] eqn:Ep; [|done|done]. rewrite bind_Ok in E. destruct (push_obj rs X Y chunk r Nc O Ep) as (R1 & S1 & T1 & O1 & U1 & P1). fold t X' in O1, U1, P1, T1.
  destruct r as [rs1 e1]. cbn [fst snd] in *. destruct e1 as [e1|]; [by injection E as <- <-|]. specialize (T1 eq_refl). specialize (U1 eq_refl).
  destruct (rverify H ovf rs1 p) as [[]| |] eqn:Ev; [|by injection E as <- <-|done].
  destruct U1 as (g & W & k & X0 & L & V & Ex & Sx & Gu). assert (Er : rs_root rs1 = smt_root H m) by apply O1. destruct (lv_prev _ _ _ _ _ _ L) as (x & Ekx & Epv).
  destruct (rverify_sound H v ovf g rs1 X' k m p L Er Ev) as [Up|(x' & dd & Ld & Ek' & Br)].
  - destruct (Gu Up) as [Hg Sy]. assert (L' : live H v True rs1 X' k) by (by eapply live_imp; [|exact L]).
    destruct (flush_ok H v rs1 X' W Y k L' V) as (rs2 & E2 & L2 & V2 & F2 & R2). rewrite E in E2. injection E2 as -> ->. 
    assert (Pk : ln_key <$> rs_prev rs2 = Some k) by (by destruct (lv_prev _ _ _ _ _ _ L2) as (? & _ & ->)).
    split; [rewrite <- P1, Pk, Epv; done|]. split; [done|]. left. exists k. split; [congruence|]. split; [done|]. split; [done|]. split; [|done]. by rewrite (union_between W X0 X' Y) in V2.
  - assert (Pv : rs_prev rs' = rs_prev rs1 /\ (e = None \/ rs' = rs1)). { rewrite flush_eq, (proj1 V) in E. destruct (write_node_batch _ _ _) as [s2|e2|] eqn:Ew; [injection E as <- <-; auto|by apply (write_no_err v _ _ W Y e2 (proj2 V)) in Ew|done]. }
    destruct Pv as [Pv Cs]. rewrite Pv. split; [done|]. destruct e as [e|]; [destruct Cs as [Cs|Cs]; [done|]; rewrite Cs; done|]. split; [done|]. right. rewrite <- P1, Epv. cbn [fmap option_fmap option_map ln_key chunk_inputs].
    rewrite Ek'. eapply broken_mono; [|exact Br]. intros z Hz. apply elem_of_app in Hz as [Hz|Hz]; [apply elem_of_app; by left|]. apply elem_of_app; right. apply elem_of_app in Hz as [Hz|Hz]; [apply elem_of_app; by left|].
    apply elem_of_app; right. apply elem_of_list_In, in_flat_map. exists dd. split; [apply in_seq; lia|by apply elem_of_list_In].
Qed.

Lemma flush_used rs g W X0 X Y k : rs_root rs = smt_root H m -> live H v g rs X k -> vals v rs W Y -> X = W ∪ X0 -> X0 ⊆ Y -> (upto m X k -> g /\ Y ⊆ X) -> upto m X k ->
  exists rs', flush rs = Ok (rs', None) /\ synced rs' X k.
Proof.
  intros R L V Ex Sx Gu Up. destruct (Gu Up) as [Hg Sy]. assert (L' : live H v True rs X k) by (by eapply live_imp; [|exact L]).
  destruct (flush_ok H v rs X W Y k L' V) as (rs2 & E2 & L2 & V2 & F2 & R2). exists rs2. split; [done|]. split; [congruence|]. split; [done|]. split; [done|]. split; [|done].
  by rewrite (union_between W X0 X Y) in V2.
Qed.
(** the object of an honest client, that has still to deliver [rest_of m X] *)
Definition hobj rs X Y : Prop := rs_root rs = smt_root H m /\ sgood (rs_store rs) Y /\ below m X /\ (fresh_obj rs X Y \/ Y = X /\ exists k, synced rs X k).
Lemma hobj_obj rs X Y : hobj rs X Y -> obj rs X Y.
Proof. intros (R & G & _ & [F|[-> [k S]]]); [split; [done|]; split; [done|]; by left|]. by eapply synced_obj. Qed.
Lemma push_honest rs X Y c d : hobj rs X Y -> rest_of m X = c ++ d -> c <> [] -> 
  exists rs1, push_chunk H rs c = Ok (rs1, None) /\ taken (ln_key <$> rs_prev rs) c = c.
Proof.
  intros Ho Er Nc. pose proof (hobj_obj _ _ _ Ho) as O. pose proof (rest_sorted m X) as So. rewrite Er in So. apply sorted_app_inv in So as (Sc & _ & _).
  destruct Ho as (R & G & B & [F|[-> [k Sy]]]).
  - destruct F as (q & k0 & x0 & Id & V & _ & Er0 & Ey & (n & Pn & Un)). destruct c as [|[k1 x1] c]; [done|].
    destruct Er0 as [_ [Me|[d0 Er0]]]; [exfalso; assert (Z : (k1, x1) ∈ rest_of m X) by (rewrite Er; by left); apply rest_elem in Z as [Z _]; by rewrite Me in Z|]. rewrite Er in Er0. injection Er0 as -> -> Ed.
    assert (Z : (k0, x0) ∈ rest_of m X) by (rewrite Er; by left). apply rest_elem in Z as [Z1 Z2].
    assert (Ei : in_order rs k0 = true /\ before (H <$> X) k0).
    { destruct Id as (_ & _ & _ & Pv). unfold in_order. destruct (rs_prev rs) as [l|].
      - destruct Pv as [Xl Ml]. assert (Lt : key_lt (ln_key l) k0). { apply key_lt_not_le. intros Le. destruct (proj2 B (ln_key l) k0) as [? ?]; [done|eauto|done|congruence]. }
        split; [by apply key_ltb_lt|]. intros k' h' E'. rewrite lookup_fmap in E'. destruct (X !! k') as [x'|] eqn:Ex; [|done]. destruct (Ml _ _ Ex) as [->|]; [done|]. by eapply key_lt_trans.
      - subst X. split; [done|]. intros k' h' E'. by rewrite fmap_empty, lookup_empty in E'. }
    destruct Ei as [Ei Bf]. cbn [push_chunk]. rewrite Ei.
    destruct (push_idle H v True rs X ∅ Y q n k0 x0 Id V Bf Pn Un) as (rs1 & -> & L1 & V1 & _). rewrite bind_Ok.
    apply StronglySorted_inv in Sc as [Sc Fc]. assert (Lc : forall e, e ∈ c -> key_lt k0 e.1). { intros e He. rewrite Forall_forall in Fc. apply (Fc e). first [done|by apply elem_of_list_In]. }
    destruct (push_chunk_any True c rs1 _ _ _ _ L1 V1) as (rs2 & e & E2 & _ & _ & _ & _ & T2). rewrite (proj2 T2) in E2 by (by apply taken_sorted_all). exists rs2. split; [done|].
    cbn. unfold in_order in Ei. destruct (rs_prev rs) as [l|]; cbn; [rewrite Ei|]; f_equal; by apply taken_sorted_all.
  - destruct Sy as (_ & L & _ & V & Up). assert (Lc : forall e, e ∈ c -> key_lt k e.1).
    { intros [k' x'] He. cbn. assert (Z : (k', x') ∈ rest_of m X) by (rewrite Er; apply elem_of_app; by left). apply rest_elem in Z as [Z1 Z2]. apply key_lt_not_le. intros Le.
      specialize (Up k'). rewrite decide_True in Up by done. congruence. }
    destruct (push_chunk_any True c rs _ _ _ _ L V) as (rs2 & e & E2 & _ & _ & _ & _ & T2). rewrite (proj2 T2) in E2 by (by apply taken_sorted_all). exists rs2. split; [done|].
    destruct (lv_prev _ _ _ _ _ _ L) as (x & _ & ->). cbn. by apply taken_sorted_all.
Qed.
Lemma add_honest ovf rs X Y c d k x p n : nb H (H <$> m) -> hobj rs X Y -> rest_of m X = c ++ d -> last c = Some (k, x) ->
  term (H <$> m) k n -> right_siblings p = map (hsib H (H <$> m) k) (turns false k n) ->
  exists rs' X', add_chunk H ovf rs c p = Ok (rs', None) /\ hobj rs' X' X' /\ rest_of m X' = d.
Proof.
  intros NB Ho Er El T Es. assert (Nc : c <> []) by (by intros ->). destruct (push_honest rs X Y c d Ho Er Nc) as (rs1 & Ep & Et).
  pose proof (hobj_obj _ _ _ Ho) as O. destruct (push_obj rs X Y c _ Nc O Ep) as (R1 & S1 & _ & O1 & U1 & P1). cbn [fst snd] in *. rewrite Et in *. specialize (U1 eq_refl).
  destruct U1 as (g & W & k' & X0 & L & V & Ex & Sx & Gu). destruct (rest_step m X c d (proj1 (proj2 (proj2 Ho))) Er) as [B' Er'].
  assert (k' = k) as ->. { destruct (lv_prev _ _ _ _ _ _ L) as (? & _ & Ev). rewrite Ev in P1. unfold last_key in P1. rewrite El in P1. cbn in P1. congruence. }
  assert (Up : upto m (fold_left ins c X) k). { apply below_upto; [done| |by apply (lv_max _ _ _ _ _ _ L)]. destruct (lv_prev _ _ _ _ _ _ L) as (? & ? & _). eauto. }
  assert (Rv : rverify H ovf rs1 p = Ok tt) by (eapply rverify_complete; eauto; apply O1).
  destruct (flush_used rs1 g W X0 _ Y k (proj1 O1) L V Ex Sx Gu Up) as (rs2 & E2 & Sy). exists rs2, (fold_left ins c X). split.
  - unfold add_chunk. destruct c as [|c0 c']; [done|]. rewrite Ep, bind_Ok, Rv. done.
  - split; [|done]. pose proof (synced_obj _ _ _ Sy) as (A1 & A2 & _). split; [done|]. split; [done|]. split; [done|]. right. split; [done|]. by exists k.
Qed.
Lemma reopen_hobj s Y : sgood s Y -> exists rs X, restore_new H s v (smt_root H m) = Ok rs /\ hobj rs X Y /\ above_rightmost s m = rest_of m X /\
  X = match store_rightmost s with None => ∅ | Some (_, l) => filter (fun kx => key_ltb (ln_key l) kx.1 = false) Y end /\ rs_store rs = s.
Proof.
  intros G. destruct (reopen_ok s Y (smt_root H m) G) as (rs & X & q & k0 & x0 & E & Id & V & R & S & B & Er & Ey & Ex & Fx).
  exists rs, X. split; [done|]. apply restore_new_prev in E as [Pv _].
  split; [split; [done|]; split; [by rewrite S|]; split; [done|]; left; by exists q, k0, x0|]. split; [|split; [|done]].
  - unfold above_rightmost. destruct Id as (_ & _ & _ & Ip). rewrite Pv in Ip. destruct (store_rightmost s) as [[nk l]|]; cbn in Ip.
    + apply rest_unique; [apply filter_sorted, entries_sorted|]. intros k x. rewrite elem_of_list_filter, entries_elem. cbn. rewrite key_ltb_lt. destruct Ip as [Xl Ml]. split.
      * intros [Lt Em]. split; [done|]. destruct (X !! k) eqn:E; [|done]. apply Ml in E. by apply key_lt_not_le in Lt.
      * intros [Em En]. split; [|done]. apply key_lt_not_le. intros Le. destruct (proj2 B (ln_key l) k) as [? ?]; [done|eauto|done|congruence].
    + by rewrite Ip, rest_empty.
  - rewrite Fx at 1. rewrite Pv. by destruct (store_rightmost s) as [[nk l]|].
Qed.
Definition source_ok (src : reader) (vs : version) : Prop := forall k x, m !! k = Some x -> exists p n, get_range_proof H src k vs = Ok p /\ term (H <$> m) k n /\
  right_siblings p = map (hsib H (H <$> m) k) (turns false k n).
Lemma deliver_ok ovf src vs evs : nb H (H <$> m) -> source_ok src vs -> forall rs X Y, hobj rs X Y -> exists rs' X' Y',
  deliver H ovf src vs m v (smt_root H m) evs rs (rest_of m X) = Ok (rs', rest_of m X') /\ hobj rs' X' Y'.
Proof.
  intros NB So. induction evs as [|[n|] evs IH]; intros rs X Y Ho.
  - by exists rs, X, Y.
  - cbn [deliver]. destruct (last (take (n + 1) (rest_of m X))) as [[k x]|] eqn:El; [|by eapply IH].
    assert (Em : m !! k = Some x). { apply last_Some in El as [l' El]. apply (rest_elem m X k x). rewrite <- (take_drop (n + 1) (rest_of m X)), El. apply elem_of_app. left. apply elem_of_app. right. by left. }
    destruct (So k x Em) as (p & j & -> & T & Es). rewrite bind_Ok.
    destruct (add_honest ovf rs X Y _ (drop (n + 1) (rest_of m X)) k x p j NB Ho (eq_sym (take_drop _ _)) El T Es) as (rs1 & X1 & E1 & Ho1 & Er1).
    rewrite E1, bind_Ok, <- Er1. by eapply IH.
  - cbn [deliver]. pose proof Ho as (_ & G & _). destruct (reopen_hobj _ _ G) as (rs1 & X1 & -> & Ho1 & Ea & _). rewrite bind_Ok, Ea. by eapply IH.
Qed.
Lemma finish_honest rs X Y : m <> ∅ -> hobj rs X Y -> rest_of m X = [] -> exists s, finish H rs = Ok s /\ complete H v s (H <$> m) /\ st_history s = hist1 v m.
Proof.
  intros Nm (R & G & B & [F|[-> [k Sy]]]) Er.
  - destruct F as (q & k0 & x0 & _ & _ & _ & [_ [Me|[d Er0]]] & _); [done|congruence].
  - apply below_all in Er; [|done]. subst X. destruct Sy as (_ & L & F & V & _). destruct (finish_ok H v rs m ∅ m k L V) as (s & E & C & Eh); [done|].
    exists s. by rewrite (left_id_L ∅ (∪)) in Eh.
Qed.
(** any client *)
Definition cgood (c : client) : Prop := exists Y, obj (cl_obj c) (cl_given c) Y /\ cl_last c = ln_key <$> rs_prev (cl_obj c).
Lemma one_call_ok ovf c e c' b : cgood c -> one_call H ovf v (smt_root H m) c e = Ok (c', b) ->
  (cgood c' /\ (b = true -> exists k, cl_last c' = Some k /\ synced (cl_obj c') (cl_given c') k)) \/ hash_broken H (root_inputs H m ++ cl_hashed c').
Proof.
  intros (Y & O & El) E. destruct e as [ch p|]; cbn [one_call] in E.
  - destruct (add_chunk H ovf (cl_obj c) ch p) as [[rs err]| |] eqn:Ea; [|done|done]. rewrite bind_Ok in E.
    destruct (add_obj ovf _ _ _ _ _ _ _ O Ea) as [Pv A]. rewrite <- El in *. apply Ok_inj in E. destruct err as [err|]; injection E as <- <-.
    + left. split; [|done]. exists Y. split; [apply A|]. cbn [cl_obj cl_last]. by rewrite Pv.
    + destruct A as [Et [[k Sy]|Br]].
      * left. split; [exists (fold_left ins (taken (cl_last c) ch) (cl_given c)); split; [by eapply synced_obj|]|]; cbn [cl_obj cl_last]; [by rewrite Pv|].
        intros _. exists k. split; [|done]. destruct Sy as (_ & L & _). destruct (lv_prev _ _ _ _ _ _ L) as (? & _ & Ev). rewrite Ev in Pv. symmetry. exact Pv.
      * right. cbn [cl_hashed]. eapply broken_mono; [|exact Br]. intros z Hz. apply elem_of_app in Hz as [Hz|Hz]; apply elem_of_app; [by left|right]. apply elem_of_app. right. exact Hz.
  - destruct O as (_ & G & _). destruct (reopen_hobj _ _ G) as (rs1 & X1 & E1 & Ho1 & Ea & Ex & Es). rewrite E1, bind_Ok in E. injection E as <- <-. left. split; [|done].
    exists Y. cbn [cl_obj cl_given cl_last]. apply restore_new_prev in E1 as [Pv _]. split; [|rewrite Pv; by destruct (store_rightmost (rs_store (cl_obj c))) as [[? ?]|]].
    assert (Eh : st_history (rs_store (cl_obj c)) = hist1 v Y). { destruct G as [(-> & _ & ->)|(rs0 & k & _ & _ & V & <- & _)]; [unfold hist1; by rewrite fmap_empty|apply V]. }
    match goal with |- obj _ ?G _ => replace G with X1 end; [by apply hobj_obj|]. rewrite Ex. destruct (store_rightmost (rs_store (cl_obj c))) as [[nk l]|]; [|done].
    rewrite Eh. f_equal. apply map_eq. intros k. unfold hist1. rewrite lookup_omap, lookup_fmap. by destruct (Y !! k).
Qed.
Lemma hashed_grows ovf root c e c' b : one_call H ovf v root c e = Ok (c', b) -> exists l, cl_hashed c' = cl_hashed c ++ l.
Proof.
  intros E. destruct e as [ch p|]; cbn [one_call] in E.
  - destruct (add_chunk H ovf (cl_obj c) ch p) as [[rs err]| |]; [|done|done]. rewrite bind_Ok in E. apply Ok_inj in E. destruct err; injection E as <- <-; [|by eexists]. exists []. by rewrite app_nil_r.
  - destruct (restore_new H _ v root); [|done|done]. rewrite bind_Ok in E. injection E as <- <-. exists []. by rewrite app_nil_r.
Qed.
Lemma all_hashed ovf root l : forall c b c' b', all_calls H ovf v root c b l = Ok (c', b') -> exists l, cl_hashed c' = cl_hashed c ++ l.
Proof.
  induction l as [|e l IH]; intros c b c' b' E; cbn [all_calls] in E; [injection E as <- <-; exists []; by rewrite app_nil_r|].
  destruct (one_call H ovf v root c e) as [[c1 b1]| |] eqn:E1; [|done|done]. rewrite bind_Ok in E. apply hashed_grows in E1 as [l1 E1]. apply IH in E as [l2 E2]. exists (l1 ++ l2). by rewrite E2, E1, app_assoc.
Qed.
Lemma all_calls_ok ovf l : forall c b c' b', cgood c -> (b = true -> exists k, cl_last c = Some k /\ synced (cl_obj c) (cl_given c) k) -> all_calls H ovf v (smt_root H m) c b l = Ok (c', b') ->
  (cgood c' /\ (b' = true -> exists k, cl_last c' = Some k /\ synced (cl_obj c') (cl_given c') k)) \/ hash_broken H (root_inputs H m ++ cl_hashed c').
Proof.
  induction l as [|e l IH]; intros c b c' b' G S E; cbn [all_calls] in E; [injection E as <- <-; by left|].
  destruct (one_call H ovf v (smt_root H m) c e) as [[c1 b1]| |] eqn:E1; [|done|done]. rewrite bind_Ok in E. apply one_call_ok in E1 as [[G1 S1]|Br]; [by eapply IH| |done].
  right. apply all_hashed in E as [l2 E2]. eapply broken_mono; [|exact Br]. intros z Hz. apply elem_of_app in Hz as [Hz|Hz]; apply elem_of_app; [by left|right]. rewrite E2. apply elem_of_app. by left.
Qed.
End run.
