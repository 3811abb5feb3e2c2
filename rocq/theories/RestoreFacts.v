(** The invariant of the restore process (Restore.v): what the partial nodes and the frozen nodes are, as a
    function of the entries received and of the path of the lowest partial node. *)
From Coq Require Import Strings.String.
From Verif Require Import Base Spec NodeType ProofDef TreeCache Mock Restore KeyFacts SmtFacts ProofFacts NodeFacts Canon CanonSib PutFacts KeyOrder OrderFacts ThmNode.
From Coq Require Import Lia.
Local Opaque Spec.smt.

Lemma pre_cmp {A} (p q l : list A) c : p `prefix_of` l -> (q ++ [c]) `prefix_of` l -> p `prefix_of` q \/ (q ++ [c]) `prefix_of` p.
Proof.
  intros P Q. destruct (prefix_weak_total p (q ++ [c]) l P Q) as [E|E]; [|by right].
  destruct E as [r E]. destruct r as [|a r _] using rev_ind.
  - rewrite app_nil_r in E. right. by rewrite E.
  - rewrite app_assoc in E. apply app_inj_tail in E as [-> _]. left. by exists r.
Qed.
Lemma pre_snoc_not {A} (q : list A) c : ~ (q ++ [c]) `prefix_of` q.
Proof. intros E%prefix_length. rewrite app_length in E. cbn in E. lia. Qed.
Lemma take_pre {A} j (q : list A) : take j q `prefix_of` q.
Proof. exists (drop j q). by rewrite take_drop. Qed.
Lemma pre_take {A} (p q : list A) : p `prefix_of` q -> p = take (length p) q.
Proof. intros [r ->]. by rewrite take_app. Qed.
Lemma take_snoc_pre {A} j (q : list A) c : q !! j = Some c -> (take j q ++ [c]) `prefix_of` q.
Proof. intros E. rewrite <- (take_S_r _ _ _ E). apply take_pre. Qed.
Lemma pre_take_snoc {A} j (q l : list A) n : q `prefix_of` l -> j < length q -> (take j q ++ [n]) `prefix_of` l -> q !! j = Some n.
Proof.
  intros Q L P. destruct (lookup_lt_is_Some_2 q j L) as [c E]. rewrite E. f_equal.
  pose proof (pre_take _ _ P) as E1. assert (P2 : (take j q ++ [c]) `prefix_of` l) by (etrans; [by apply take_snoc_pre|done]).
  pose proof (pre_take _ _ P2) as E2. rewrite !app_length in E1, E2. cbn [length] in E1, E2. rewrite <- E2 in E1. by apply app_inj_tail in E1 as [_ ->].
Qed.
Lemma pre_snoc_eq {A} (q l : list A) n m : (q ++ [n]) `prefix_of` l -> (q ++ [m]) `prefix_of` l -> n = m.
Proof.
  intros E1%pre_take E2%pre_take. rewrite !app_length in E1, E2. cbn [length] in E1, E2. rewrite <- E2 in E1. by apply app_inj_tail in E1 as [_ ->].
Qed.
(** the rightmost position of a predicate on the nibbles *)
Lemma last_app1 {A} (l : list A) (x : A) : last (l ++ [x]) = Some x.
Proof. by rewrite last_snoc. Qed.
Lemma sorted_last (P : nibble -> Prop) `{forall n, Decision (P n)} c l : StronglySorted nib_lt l -> c ∈ l -> P c -> (forall n, n ∈ l -> (nib_to_N c < nib_to_N n)%N -> ~ P n) ->
  last (filter P l) = Some c.
Proof.
  intros S. induction S as [|a l S IH F]; intros Hc Pc N; [by apply elem_of_nil in Hc|].
  rewrite filter_cons. rewrite Forall_forall in F.
  apply elem_of_cons in Hc as [->|Hc].
  - rewrite decide_True by done. replace (filter P l) with ([] : list nibble); [done|]. symmetry. 
    destruct (filter P l) as [|b r] eqn:E; [done|]. assert (B : b ∈ filter P l) by (rewrite E; by left).
    apply elem_of_list_filter in B as [B1 B2]. destruct (N b); [by right| |done]. apply F. first [done|by apply elem_of_list_In].
  - assert (L : last (filter P l) = Some c) by (apply IH; [done|done|]; intros n Hn; apply N; by right).
    case_decide; [|done]. destruct (filter P l); [done|]. done.
Qed.
Lemma rposition_spec (ch : gmap nibble child_info) c x : ch !! c = Some x -> (forall n, (nib_to_N c < nib_to_N n)%N -> ch !! n = None) -> rposition ch = Some c.
Proof.
  intros E N. unfold rposition. apply sorted_last; [apply all_nibbles_sorted|apply all_nibbles_complete|by rewrite E|].
  intros n _ L. rewrite N by done. apply is_Some_None.
Qed.

Section facts.
Context (H : list byte -> bytes32) (v : version).
Implicit Types (S : gmap key vhash) (q p : list nibble).
Notation vv := (fun _ : list nibble => v).
Notation node_at := (node_at H). Notation children_of := (children_of H).

(** what is known about the subtree at path [p] once it is complete *)
Definition cinfo S p : option child_info :=
  match map_to_list (U p S) with
  | [] => None
  | [(k, h)] => Some (CILeaf (LeafNode k h))
  | _ => Some (CIInternal (Some (ms H (bits p) S)) (size (U p S)))
  end.
Lemma cinfo_none S p : U p S = ∅ -> cinfo S p = None.
Proof. unfold cinfo. intros ->. by rewrite map_to_list_empty. Qed.
Lemma cinfo_leaf S p k h : U p S = {[ k := h ]} -> cinfo S p = Some (CILeaf (LeafNode k h)).
Proof. unfold cinfo. intros ->. by rewrite map_to_list_singleton. Qed.
Lemma cinfo_many S p : 2 <= size (U p S) -> cinfo S p = Some (CIInternal (Some (ms H (bits p) S)) (size (U p S))).
Proof.
  intros Hm. unfold cinfo. pose proof (mtl_length (U p S)) as L.
  destruct (map_to_list (U p S)) as [|[k h] [|y l]]; simpl in L; try lia. done.
Qed.
Lemma cinfo_is_none S p : cinfo S p = None <-> U p S = ∅.
Proof.
  destruct (size_cases (U p S)) as [E|[(k & h & E)|E]].
  - by rewrite cinfo_none.
  - rewrite (cinfo_leaf _ _ _ _ E). split; [done|]. intros Z. rewrite E in Z. by apply single_ne in Z.
  - rewrite (cinfo_many _ _ E). split; [done|]. intros Z. rewrite Z, map_size_empty in E. lia.
Qed.
Lemma cinfo_ext S S' p : U p S = U p S' -> cinfo S p = cinfo S' p.
Proof. intros E. unfold cinfo. rewrite <- E. by rewrite (ms_under H (bits p) S S'). Qed.

Lemma into_child_ok S p n : match cinfo S (p ++ [n]) with None => child_of H S vv p n = None
  | Some ci => exists c, into_child H v ci = Ok c /\ child_of H S vv p n = Some c end.
Proof.
  unfold child_of. destruct (size_cases (U (p ++ [n]) S)) as [E|[(k & h & E)|E]].
  - rewrite cinfo_none, E by done. by rewrite map_size_empty.
  - rewrite (cinfo_leaf _ _ _ _ E). rewrite E, map_size_singleton. eexists. split; [reflexivity|].
    unfold U in E. by rewrite (ms_single _ _ _ _ _ E).
  - rewrite (cinfo_many _ _ E). destruct (size (U (p ++ [n]) S)) as [|[|s]] eqn:Es; try lia. eexists. split; [reflexivity|]. done.
Qed.
Lemma into_children_ok S p (ch : gmap nibble child_info) l : (forall n, ch !! n = cinfo S (p ++ [n])) -> NoDup l ->
  exists r, into_children H v ch l = Ok r /\ forall n, r !! n = if decide (n ∈ l) then child_of H S vv p n else None.
Proof.
  intros E. induction l as [|n l IH]; intros ND.
  - exists ∅. split; [done|]. intros n. rewrite decide_False by (apply not_elem_of_nil). done.
  - apply NoDup_cons in ND as [Nn ND]. destruct (IH ND) as (r & Er & L). cbn [into_children]. rewrite E.
    pose proof (into_child_ok S p n) as C. destruct (cinfo S (p ++ [n])) as [ci|].
    + destruct C as (c & -> & C). rewrite bind_Ok, Er, bind_Ok. eexists. split; [done|]. intros m.
      destruct (decide (m = n)) as [->|Ne].
      * rewrite lookup_insert, decide_True by (by left). by rewrite C.
      * rewrite lookup_insert_ne, L by done. destruct (decide (m ∈ l)).
        -- rewrite decide_True by (by right). done.
        -- rewrite decide_False; [done|]. rewrite elem_of_cons. intros [|]; done.
    + exists r. split; [done|]. intros m. rewrite L. destruct (decide (m ∈ l)).
      -- rewrite decide_True by (by right). done.
      -- destruct (decide (m = n)) as [->|Ne]; [rewrite decide_True by (by left); done|].
         rewrite decide_False; [done|]. rewrite elem_of_cons. intros [|]; done.
Qed.
Lemma into_internal_ok S q i : 2 <= size (U q S) -> (forall n, ii_children i !! n = cinfo S (q ++ [n])) ->
  into_internal_node H v i = Ok (ii_key i, mkInternal (children_of S vv q) (size (U q S))).
Proof.
  intros Hm E. unfold into_internal_node. destruct (into_children_ok S q _ all_nibbles E all_nibbles_nodup) as (r & -> & L). rewrite bind_Ok.
  replace r with (children_of S vv q).
  - by rewrite internal_new_canon, bind_Ok.
  - apply map_eq. intros n. rewrite children_of_lookup, L, decide_True by apply all_nibbles_complete. done.
Qed.

(** the partial nodes *)
Definition ii_ok S q (j : nat) (i : internal_info) : Prop :=
  ii_key i = (v, take j q) /\ forall n, ii_children i !! n = if decide (q !! j = Some n) then Some (CIInternal None 0) else cinfo S (take j q ++ [n]).
Definition chain_ok S q (ps : list internal_info) : Prop :=
  length ps = Datatypes.S (length q) /\ forall j i, ps !! j = Some i -> ii_ok S q j i.
(** nothing to the right of the path [q] *)
Definition rmost S q : Prop := forall j c n, q !! j = Some c -> (nib_to_N c < nib_to_N n)%N -> U (take j q ++ [n]) S = ∅.
(** the positions of complete nodes: those of the tree of [S] (where the nodes along [q] count as internal),
    except the nodes along [q] and the leaf [ex] *)
Definition occ S q p : Prop := U p S <> ∅ /\ forall r, r `prefix_of` p -> r <> p -> r `prefix_of` q \/ 2 <= size (U r S).
Definition fr S q (ex : option (list nibble)) p : Prop := occ S q p /\ ~ p `prefix_of` q /\ ex <> Some p.

Definition all_nodes (rs : rstate) : gmap nodekey node := rs_fnodes rs ∪ st_nodes (rs_store rs).
Record RI (g : Prop) (rs : rstate) S q (ex : option (list nibble)) : Prop := {
  ri_version : rs_version rs = v;
  ri_len : length q < 64;
  ri_chain : chain_ok S q (rs_partial rs);
  ri_rmost : rmost S q;
  ri_disj : g -> rs_fnodes rs ##ₘ st_nodes (rs_store rs);
  ri_nodes : g -> forall w p nd, all_nodes rs !! (w, p) = Some nd <-> w = v /\ fr S q ex p /\ nd = node_at S vv p }.
Arguments ri_version {g rs S q ex}. Arguments ri_len {g rs S q ex}. Arguments ri_chain {g rs S q ex}. Arguments ri_rmost {g rs S q ex}. Arguments ri_disj {g rs S q ex}. Arguments ri_nodes {g rs S q ex}.
(** what the operations on the partial nodes leave alone *)
Definition same_rest (rs rs' : rstate) : Prop :=
  rs_store rs' = rs_store rs /\ rs_version rs' = rs_version rs /\ rs_fvalues rs' = rs_fvalues rs /\ rs_prev rs' = rs_prev rs /\
  rs_num rs' = rs_num rs /\ rs_root rs' = rs_root rs.
Lemma same_rest_refl rs : same_rest rs rs.
Proof. done. Qed.
Lemma same_rest_trans a b c : same_rest a b -> same_rest b c -> same_rest a c.
Proof. intros (? & ? & ? & ? & ? & ?) (? & ? & ? & ? & ? & ?). repeat split; congruence. Qed.

Lemma freeze_node_nodes rs nk nd : all_nodes (freeze_node rs nk nd) = <[ nk := nd ]> (all_nodes rs).
Proof. unfold all_nodes. cbn. by rewrite insert_union_l. Qed.

(** freezing the lowest partial node *)
Lemma freeze_top_ok g rs S q c : RI g rs S (q ++ [c]) None -> 2 <= size (U (q ++ [c]) S) ->
  exists rs' top, last (rs_partial rs) = Some top /\ freeze_top H rs (take (length (rs_partial rs) - 1) (rs_partial rs)) top = Ok rs' /\
    RI g rs' S q None /\ same_rest rs rs'.
Proof.
  intros I Hm. destruct (ri_chain I) as [Lp Ch]. rewrite app_length in Lp. cbn [length] in Lp.
  destruct (lookup_lt_is_Some_2 (rs_partial rs) (length q + 1) ltac:(lia)) as [top Et].
  destruct (lookup_lt_is_Some_2 (rs_partial rs) (length q) ltac:(lia)) as [par Ep].
  assert (Eps : rs_partial rs = take (length q) (rs_partial rs) ++ [par; top]).
  { rewrite <- (take_drop (length q) (rs_partial rs)) at 1. f_equal. erewrite drop_S by exact Ep. f_equal.
    erewrite drop_S by (rewrite <- Nat.add_1_r; exact Et). f_equal. apply drop_ge. lia. }
  set (ps0 := take (length q) (rs_partial rs)) in *. assert (L0 : length ps0 = length q) by (unfold ps0; rewrite take_length; lia).
  assert (Et2 : take (length (rs_partial rs) - 1) (rs_partial rs) = ps0 ++ [par]).
  { rewrite Eps. change [par; top] with ([par] ++ [top]). rewrite (app_assoc ps0 [par] [top]). rewrite take_app_alt; [done|]. rewrite !app_length, L0. cbn. lia. }
  rewrite Et2.
  assert (Lt : last (rs_partial rs) = Some top) by (rewrite Eps; change [par; top] with ([par] ++ [top]); by rewrite (app_assoc ps0 [par] [top]), last_snoc).
  rewrite Lt. cut (exists rs', freeze_top H rs (ps0 ++ [par]) top = Ok rs' /\ RI g rs' S q None /\ same_rest rs rs').
  { intros (rs' & A1 & A2 & A3). by exists rs', top. }
  destruct (Ch _ _ Et) as [Kt Ct]. destruct (Ch _ _ Ep) as [Kp Cp].
  rewrite take_ge in Kt by (rewrite app_length; cbn; lia).
  assert (Ct' : forall n, ii_children top !! n = cinfo S ((q ++ [c]) ++ [n])).
  { intros n. rewrite Ct, decide_False by (rewrite lookup_ge_None_2; [done|rewrite app_length; cbn; lia]). by rewrite take_ge by (rewrite app_length; cbn; lia). }
  unfold freeze_top. rewrite (ri_version I). rewrite (into_internal_ok S (q ++ [c]) top Hm Ct'), bind_Ok, Kt.
  pose proof (U_many_len _ _ Hm) as Lq. rewrite in_hash_canon by done. rewrite bind_Ok, last_snoc.
  rewrite take_app in Kp, Cp. 
  assert (Eqc : (q ++ [c]) !! length q = Some c) by (by rewrite lookup_app_r, Nat.sub_diag by lia). rewrite Eqc in Cp.
  assert (Cc : ii_children par !! c = Some (CIInternal None 0)) by (rewrite Cp; by rewrite decide_True).
  rewrite (rposition_spec _ c _ Cc); cycle 1.
  { intros n Ln. rewrite Cp, decide_False by (intros [= ->]; lia). apply cinfo_none.
    pose proof (ri_rmost I _ _ n Eqc Ln) as R. by rewrite take_app in R. }
  cbn [unwrap]. rewrite bind_Ok, Cc. rewrite bool_decide_true by done. cbn [assert_]. rewrite bind_Ok. cbn [Nat.eqb assert_]. rewrite bind_Ok.
  rewrite app_length, L0. cbn [length in_leaf_count]. rewrite Nat.add_sub, take_app_alt by done.
  eexists. split; [done|]. split; [|done].
  split; cbn [set_partial freeze_node rs_version rs_partial rs_fnodes rs_store].
  - apply (ri_version I).
  - rewrite app_length in Lq. lia.
  - split; [rewrite app_length, L0; cbn; lia|]. intros j i Hi. destruct (decide (j < length q)) as [Lj|Lj].
    + rewrite lookup_app_l in Hi by lia. assert (Hi' : rs_partial rs !! j = Some i) by (rewrite Eps, lookup_app_l by lia; done).
      destruct (Ch _ _ Hi') as [K C]. rewrite take_app_le in K by lia. split; [done|]. intros n. rewrite C, lookup_app_l, take_app_le by lia. done.
    + rewrite lookup_app_r in Hi by lia. assert (j = length q) as -> by (apply lookup_lt_Some in Hi; cbn in Hi; lia).
      rewrite L0, Nat.sub_diag in Hi. injection Hi as <-. unfold ii_ok. rewrite take_ge by lia. split; [cbn; by rewrite Kp|]. intros n. cbn [ii_set ii_children].
      rewrite decide_False by (rewrite lookup_ge_None_2 by lia; done).
      destruct (decide (n = c)) as [->|Ne]; [rewrite lookup_insert, cinfo_many by done; done|].
      rewrite lookup_insert_ne by done. rewrite Cp, decide_False; [done|]. intros [= <-]. done.
  - intros j c' n Hj Ln. pose proof (lookup_lt_Some _ _ _ Hj) as Lj. pose proof (ri_rmost I j c' n) as R. rewrite lookup_app_l, take_app_le in R by lia. by apply R.
  - intros G. assert (Nk : all_nodes rs !! (v, q ++ [c]) = None).
    { destruct (all_nodes rs !! (v, q ++ [c])) as [nd|] eqn:E; [|done]. apply (ri_nodes I G) in E as (_ & (_ & X & _) & _). by destruct X. }
    unfold all_nodes in Nk. apply lookup_union_None in Nk as [_ Nk]. apply map_disjoint_insert_l_2; [done|apply (ri_disj I G)].
  - intros G w p nd.
    change (all_nodes _) with (all_nodes (freeze_node rs (v, q ++ [c]) (Internal (mkInternal (children_of S vv (q ++ [c])) (size (U (q ++ [c]) S)))))).
    rewrite freeze_node_nodes.
    assert (Fr : forall p, p <> q ++ [c] -> fr S q None p <-> fr S (q ++ [c]) None p).
    { intros p' Np. unfold fr, occ. split; intros ((Ne & O) & NP & _).
      - split; [|split; [|done]].
        + split; [done|]. intros r R1 R2. destruct (O r R1 R2) as [R|R]; [|by right]. left. by apply prefix_app_r.
        + intros P. destruct (pre_cmp p' q (q ++ [c]) c P) as [P'|P']; [done|by apply NP|]. apply Np. by apply (anti_symm prefix).
      - split; [|split; [|done]].
        + split; [done|]. intros r R1 R2. destruct (O r R1 R2) as [R|R]; [|by right].
          destruct (pre_cmp r q (q ++ [c]) c R) as [|P]; [done|by left|]. right. 
          assert (r = q ++ [c]) as -> by (apply (anti_symm prefix); done). done.
        + intros P. apply NP. by apply prefix_app_r. }
    rewrite lookup_insert_Some. rewrite (ri_nodes I G). split.
    + intros [[[= <- <-] <-]|[Ne (-> & F & ->)]].
      * split; [done|]. split; [|by rewrite node_at_internal]. split; [|split; [apply pre_snoc_not|done]].
        split; [by apply U_many_ne|]. intros r R1 R2. left. destruct (pre_cmp r q (q ++ [c]) c R1) as [|P]; [done|done|].
        exfalso. apply R2. by apply (anti_symm prefix).
      * split; [done|]. split; [|done]. apply Fr; [|done]. intros ->. by apply Ne.
    + intros (-> & F & ->). destruct (decide (p = q ++ [c])) as [->|Ne]; [left|right].
      * by rewrite node_at_internal.
      * split; [congruence|]. split; [done|]. split; [|done]. by apply Fr.
Qed.

Lemma freeze_internal_ok g count : forall rs S q, RI g rs S q None -> count <= length q -> (0 < count -> 2 <= size (U q S)) ->
  exists rs', freeze_internal H count rs = Ok rs' /\ RI g rs' S (take (length q - count) q) None /\ same_rest rs rs'.
Proof.
  induction count as [|count IH]; intros rs S q I L Hm.
  - exists rs. split; [done|]. rewrite take_ge by lia. done.
  - destruct q as [|c q _] using rev_ind; [cbn in L; lia|]. rewrite app_length in L. cbn [length] in L. specialize (Hm ltac:(lia)).
    destruct (freeze_top_ok g rs S q c I Hm) as (rs1 & top & Et & E1 & I1 & R1).
    cbn [freeze_internal]. rewrite Et. cbn [unwrap]. rewrite bind_Ok, E1, bind_Ok.
    destruct (IH rs1 S q I1) as (rs2 & E2 & I2 & R2); [lia|intros _; by eapply U_many_up|].
    exists rs2. split; [done|]. split; [|by eapply same_rest_trans]. 
    rewrite app_length, take_app_le by (cbn; lia). cbn [length]. by replace (length q + 1 - Datatypes.S count) with (length q - count) by lia.
Qed.

Lemma RI_chain_only g rs S q ex ex' : RI g rs S q ex -> RI False rs S q ex'.
Proof. intros I. split; [apply (ri_version I)|apply (ri_len I)|apply (ri_chain I)|apply (ri_rmost I)|done|done]. Qed.
Lemma ri_bottom g rs S q ex : RI g rs S q ex -> exists i, rs_partial rs !! length q = Some i /\ last (rs_partial rs) = Some i /\ ii_key i = (v, q) /\
  (forall n, ii_children i !! n = cinfo S (q ++ [n])) /\ rs_partial rs = take (length q) (rs_partial rs) ++ [i].
Proof.
  intros I. destruct (ri_chain I) as [Lp Ch]. destruct (lookup_lt_is_Some_2 (rs_partial rs) (length q) ltac:(lia)) as [i Ei].
  exists i. split; [done|]. destruct (Ch _ _ Ei) as [K C]. rewrite take_ge in K, C by lia.
  assert (E : rs_partial rs = take (length q) (rs_partial rs) ++ [i]).
  { rewrite <- (take_drop (length q) (rs_partial rs)) at 1. f_equal. erewrite drop_S by exact Ei. f_equal. apply drop_ge. lia. }
  split; [rewrite E; by rewrite last_snoc|]. split; [done|]. split; [|done].
  intros n. rewrite C, decide_False; [done|]. by rewrite lookup_ge_None_2 by lia.
Qed.

(** freezing the leaf added last *)
Lemma freeze_prev_ok g rs S q c k h : RI g rs S q (Some (q ++ [c])) -> U (q ++ [c]) S = {[ k := h ]} ->
  (forall n, (nib_to_N c < nib_to_N n)%N -> U (q ++ [n]) S = ∅) -> 0 < rs_num rs ->
  exists rs', freeze_previous_leaf rs = Ok rs' /\ RI g rs' S q None /\ same_rest rs rs' /\ rs_partial rs' = rs_partial rs.
Proof.
  intros I Eu R Hn. unfold freeze_previous_leaf. destruct (Nat.eqb_spec (rs_num rs) 0); [lia|].
  destruct (ri_bottom _ _ _ _ _ I) as (i & _ & -> & K & C & _). cbn [unwrap]. rewrite bind_Ok.
  assert (Cc : ii_children i !! c = Some (CILeaf (LeafNode k h))) by (rewrite C; by apply cinfo_leaf).
  rewrite (rposition_spec _ c _ Cc); [|intros m Lm; rewrite C; by apply cinfo_none, R]. cbn [unwrap]. rewrite bind_Ok, Cc.
  eexists. split; [done|]. split; [|done]. unfold gen_child. rewrite (ri_version I), K. cbn [fst snd].
  split; [apply (ri_version I)|apply (ri_len I)|apply (ri_chain I)|apply (ri_rmost I)| |].
  - intros G. cbn [freeze_node rs_fnodes rs_store]. apply map_disjoint_insert_l_2; [|by apply (ri_disj I)].
    destruct (st_nodes (rs_store rs) !! (v, q ++ [c])) as [nd|] eqn:E; [|done].
    assert (E' : all_nodes rs !! (v, q ++ [c]) = Some nd). { unfold all_nodes. rewrite lookup_union_r; [done|].
      pose proof (ri_disj I G) as D. rewrite map_disjoint_spec in D. destruct (rs_fnodes rs !! (v, q ++ [c])) eqn:F; [|done]. by destruct (D _ _ _ F E). }
    apply (ri_nodes I G) in E' as (_ & (_ & _ & X) & _). done.
  - intros G w p nd. rewrite freeze_node_nodes. rewrite lookup_insert_Some, (ri_nodes I G). split.
    + intros [[[= <- <-] <-]|[Ne (-> & (O & P & _) & ->)]].
      * split; [done|]. split; [|by erewrite node_at_leaf]. split; [|split; [apply pre_snoc_not|done]].
        split; [rewrite Eu; apply single_ne|]. intros r R1 R2. destruct (pre_cmp r q (q ++ [c]) c R1) as [|X]; [done|by left|].
        exfalso. apply R2. by apply (anti_symm prefix).
      * done.
    + intros (-> & (O & P & _) & ->). destruct (decide (p = q ++ [c])) as [->|Ne].
      * left. split; [done|]. by erewrite node_at_leaf.
      * right. split; [congruence|]. split; [done|]. split; [|done]. split; [done|]. split; [done|]. congruence.
Qed.

(** adding a leaf as a child of the lowest partial node *)
Lemma U_insert_out {A} p (M : gmap key A) k x : ~ p `prefix_of` key_nibbles k -> U p (<[k:=x]> M) = U p M.
Proof.
  intros N. apply map_eq. intros k'. apply option_eq. intros y. rewrite !U_lookup. split; intros [E P]; (split; [|done]).
  - rewrite lookup_insert_ne in E; [done|]. congruence.
  - rewrite lookup_insert_ne; [done|]. congruence.
Qed.
Lemma U_insert_empty {A} p (M : gmap key A) k x : p `prefix_of` key_nibbles k -> U p M = ∅ -> U p (<[k:=x]> M) = {[ k := x ]}.
Proof.
  intros P E. apply map_eq. intros k'. apply option_eq. intros y. rewrite U_lookup, lookup_insert_Some, lookup_singleton_Some. split.
  - intros [[[<- <-]|[Ne L]] P']; [done|]. exfalso. assert (X : U p M !! k' = Some y) by (by apply U_lookup). by rewrite E in X.
  - intros [<- <-]. split; [by left|done].
Qed.
Lemma U_app_none {A} p q (M : gmap key A) : p `prefix_of` q -> U p M = ∅ -> U q M = ∅.
Proof. intros [r ->] E. destruct (decide (U (p ++ r) M = ∅)); [done|]. by destruct (U_app_ne p r M). Qed.
Lemma size_U_mono {A} p (M M' : gmap key A) : M ⊆ M' -> size (U p M) <= size (U p M').
Proof.
  intros Sub. apply size_le, map_subseteq_spec. intros k x. rewrite !U_lookup. intros [E P]. split; [|done]. by eapply lookup_weaken.
Qed.
Lemma set_leaf_ok g rs S q n k2 vh : RI g rs S q None -> (q ++ [n]) `prefix_of` key_nibbles k2 -> U (q ++ [n]) S = ∅ -> S !! k2 = None ->
  exists ps', set_child_at (rs_partial rs) (length q) n (CILeaf (LeafNode k2 vh)) = Ok ps' /\
    RI g (set_partial rs ps') (<[ k2 := vh ]> S) q (Some (q ++ [n])).
Proof.
  intros I Pk Eu Es. destruct (ri_bottom _ _ _ _ _ I) as (i & Ei & _ & K & C & Eps).
  unfold set_child_at. rewrite Ei. cbn [unwrap]. rewrite bind_Ok. eexists. split; [done|].
  assert (Eu' : U (q ++ [n]) (<[k2:=vh]> S) = {[ k2 := vh ]}) by (by apply U_insert_empty).
  assert (Pq : q `prefix_of` key_nibbles k2) by (by eapply prefix_snoc_l).
  split; cbn [set_partial rs_version rs_partial rs_fnodes rs_store].
  - apply (ri_version I).
  - apply (ri_len I).
  - destruct (ri_chain I) as [Lp Ch]. split; [by rewrite insert_length|]. intros j x Hx. destruct (decide (j = length q)) as [->|Nj].
    + rewrite list_lookup_insert in Hx by lia. injection Hx as <-. unfold ii_ok. rewrite take_ge by lia. split; [done|]. intros m. cbn [ii_set ii_children].
      rewrite decide_False by (by rewrite lookup_ge_None_2 by lia). destruct (decide (m = n)) as [->|Nm].
      * rewrite lookup_insert. symmetry. by apply cinfo_leaf.
      * rewrite lookup_insert_ne, C by done. apply cinfo_ext. symmetry. apply U_insert_out. intros P. apply Nm. by eapply pre_snoc_eq.
    + rewrite list_lookup_insert_ne in Hx by done. destruct (Ch _ _ Hx) as [K' C']. split; [done|]. intros m. rewrite C'.
      destruct (decide (q !! j = Some m)); [done|]. apply cinfo_ext. symmetry. apply U_insert_out. intros P. apply lookup_lt_Some in Hx.
      by apply n0, (pre_take_snoc j q (key_nibbles k2)); [|lia|].
  - intros j c' m Hj Lm. pose proof (lookup_lt_Some _ _ _ Hj). rewrite U_insert_out; [by eapply (ri_rmost I)|]. intros P.
    pose proof (pre_take_snoc j q (key_nibbles k2) m Pq ltac:(done) P) as X. rewrite Hj in X. injection X as ->. lia.
  - intros G. by apply (ri_disj I).
  - intros G w p nd. change (all_nodes _) with (all_nodes rs). rewrite (ri_nodes I G). 
    assert (Far : forall r, r `prefix_of` key_nibbles k2 -> r `prefix_of` q \/ (q ++ [n]) `prefix_of` r) by (intros r Pr; by eapply pre_cmp).
    assert (X : fr S q None p <-> fr (<[k2:=vh]> S) q (Some (q ++ [n])) p /\ ~ p `prefix_of` key_nibbles k2).
    { destruct (decide (p `prefix_of` key_nibbles k2)) as [Pp|Np].
      - split; [|by intros [_ []]]. intros ((O & _) & P & _). destruct (Far p Pp) as [|P']; [done|]. destruct O. by eapply U_app_none.
      - split.
        + intros ((O1 & O2) & P & _). split; [|done]. split; [|split; [done|]].
          * split; [by rewrite U_insert_out|]. intros r R1 R2. destruct (O2 r R1 R2) as [|Q]; [by left|right]. etrans; [exact Q|]. apply size_U_mono, insert_subseteq, Es.
          * intros [= <-]. done.
        + intros (((O1 & O2) & P & _) & _). split; [|done]. rewrite U_insert_out in O1 by done. split; [done|]. intros r R1 R2.
          destruct (O2 r R1 R2) as [|Q]; [by left|]. destruct (decide (r `prefix_of` key_nibbles k2)) as [Pr|Nr]; [|right; by rewrite U_insert_out in Q].
          destruct (Far r Pr) as [|[z ->]]; [by left|]. exfalso. pose proof (U_app_size (q ++ [n]) z (<[k2:=vh]> S)) as L. rewrite Eu', map_size_singleton in L. lia. }
    assert (Y : fr (<[k2:=vh]> S) q (Some (q ++ [n])) p -> ~ p `prefix_of` key_nibbles k2).
    { intros ((O1 & O2) & P & Ne) Pp. destruct (Far p Pp) as [|P']; [done|]. destruct (decide (q ++ [n] = p)) as [E|Nn]; [by rewrite E in Ne|].
      destruct (O2 _ P' Nn) as [Z|Z]; [by apply pre_snoc_not in Z|]. rewrite Eu', map_size_singleton in Z. lia. }
    split.
    + intros (-> & F & ->). apply X in F as [F N]. split; [done|]. split; [done|]. apply node_at_ext; [by rewrite U_insert_out|done].
    + intros (-> & F & ->). pose proof (Y F) as N. split; [done|]. split; [by apply X|]. apply node_at_ext; [by rewrite U_insert_out|done].
Qed.

(** walking down the nodes shared by the new key and the partial nodes *)
Lemma walk_ok g rs S q ex k vh j : RI g rs S q ex -> j <= length q -> take j q = take j (key_nibbles k) ->
  add_loop H rs k vh [] (key_nibbles k) = add_loop H rs k vh (take j q) (drop j (key_nibbles k)).
Proof.
  intros I. destruct (ri_chain I) as [Lp Ch]. induction j as [|j IH]; intros Lj E; [done|].
  destruct (lookup_lt_is_Some_2 q j ltac:(lia)) as [c Ec].
  assert (En : key_nibbles k !! j = Some c).
  { rewrite <- (lookup_take _ (Datatypes.S j)) in Ec by lia. rewrite E in Ec. by rewrite lookup_take in Ec by lia. }
  rewrite IH; [|lia|].
  2:{ apply (f_equal (take j)) in E. rewrite !take_take in E. by replace (j `min` Datatypes.S j) with j in E by lia. }
  erewrite (drop_S (key_nibbles k)) by exact En. cbn [add_loop]. rewrite take_length. replace (j `min` length q) with j by lia.
  destruct (lookup_lt_is_Some_2 (rs_partial rs) j ltac:(lia)) as [i Ei]. rewrite Ei. cbn [unwrap]. rewrite bind_Ok.
  destruct (Ch _ _ Ei) as [_ C]. rewrite C, decide_True by done. f_equal. by rewrite <- (take_S_r _ _ _ Ec).
Qed.

(** splitting the leaf added last *)
Lemma chain_loop_ok count : forall vis rem, count <= length rem ->
  exists ps, chain_loop v count vis rem = Ok (ps, vis ++ take count rem) /\ length ps = count /\
    forall j, j < count -> exists n, rem !! j = Some n /\ ps !! j = Some (ii_set (ii_empty (v, vis ++ take j rem)) n (CIInternal None 0)).
Proof.
  induction count as [|count IH]; intros vis rem L.
  - exists []. split; [cbn; by rewrite app_nil_r|]. split; [done|]. intros j Lj. lia.
  - destruct rem as [|n rem]; [cbn in L; lia|]. cbn [chain_loop length] in *.
    destruct (IH (vis ++ [n]) rem ltac:(lia)) as (ps & -> & Lps & Hp). rewrite bind_Ok. eexists. split; [cbn [take]; by rewrite <- app_assoc|].
    split; [cbn; lia|]. intros [|j] Lj.
    + exists n. split; [done|]. cbn. by rewrite app_nil_r.
    + destruct (Hp j ltac:(lia)) as (n' & E1 & E2). exists n'. split; [done|]. transitivity (ps !! j); [done|]. rewrite E2. cbn [take]. by rewrite <- app_assoc.
Qed.
(** [q'], [e]: the path of the new lowest node and the nibble of the existing leaf there *)
Lemma deepen_ok g rs S q c k h rem count e q' : RI g rs S q (Some (q ++ [c])) -> U (q ++ [c]) S = {[ k := h ]} ->
  count <= length rem -> q' = (q ++ [c]) ++ take count rem -> (q' ++ [e]) `prefix_of` key_nibbles k ->
  (forall n, (nib_to_N c < nib_to_N n)%N -> U (q ++ [n]) S = ∅) ->
  exists ps chain, set_child_at (rs_partial rs) (length (rs_partial rs) - 1) c (CIInternal None 0) = Ok ps /\
    chain_loop v count (q ++ [c]) rem = Ok (chain, q') /\
    RI g (set_partial rs (ps ++ chain ++ [ii_set (ii_empty (v, q')) e (CILeaf (LeafNode k h))])) S q' (Some (q' ++ [e])) /\
    length (ps ++ chain ++ [ii_set (ii_empty (v, q')) e (CILeaf (LeafNode k h))]) = Datatypes.S (length q').
Proof.
  intros I Eu Lc Eq Pk Rm. destruct (ri_bottom _ _ _ _ _ I) as (i & Ei & _ & K & C & Eps).
  destruct (ri_chain I) as [Lp Ch]. unfold set_child_at. rewrite Lp. cbn [Nat.sub]. rewrite Nat.sub_0_r, Ei. cbn [unwrap]. rewrite bind_Ok.
  destruct (chain_loop_ok count (q ++ [c]) rem Lc) as (chain & Ec & Lch & Hch).
  exists (<[length q:=ii_set i c (CIInternal None 0)]> (rs_partial rs)), chain. split; [done|]. rewrite Eq. split; [done|]. rewrite <- Eq.
  assert (Lq' : length q' = Datatypes.S (length q + count)).
  { rewrite Eq, !app_length, take_length. cbn. lia. }
  assert (Pq' : q' `prefix_of` key_nibbles k) by (by eapply prefix_snoc_l).
  assert (Pqc' : (q ++ [c]) `prefix_of` q') by (rewrite Eq; by apply prefix_app_r).
  assert (Pqc : (q ++ [c]) `prefix_of` key_nibbles k) by (by etrans).
  assert (Pqq : q `prefix_of` q') by (by eapply prefix_snoc_l).
  assert (Lps : length (<[length q:=ii_set i c (CIInternal None 0)]> (rs_partial rs) ++ chain ++ [ii_set (ii_empty (v, q')) e (CILeaf (LeafNode k h))]) = Datatypes.S (length q')).
  { rewrite !app_length, insert_length, Lp, Lch. cbn. lia. }
  split; [|done].
  assert (Sub : forall p, (q ++ [c]) `prefix_of` p -> p `prefix_of` key_nibbles k -> U p S = {[ k := h ]}).
  { intros p [z ->] Pp. apply map_eq. intros x. apply option_eq. intros y. rewrite U_lookup. split.
    - intros [E P]. rewrite <- Eu. apply U_lookup. split; [done|]. by eapply prefix_app_l.
    - intros E. rewrite <- Eu in E. apply U_lookup in E as [E P]. split; [done|]. 
      assert (X : U (q ++ [c]) S !! x = Some y) by (by apply U_lookup). rewrite Eu in X. apply lookup_singleton_Some in X as [<- <-]. done. }
  assert (Off : forall p, (q ++ [c]) `prefix_of` p -> ~ p `prefix_of` key_nibbles k -> U p S = ∅).
  { intros p [z ->] Np. apply map_eq. intros x. rewrite lookup_empty. destruct (U ((q ++ [c]) ++ z) S !! x) as [y|] eqn:E; [|done].
    apply U_lookup in E as [E P]. assert (X : U (q ++ [c]) S !! x = Some y) by (apply U_lookup; split; [done|]; by eapply prefix_app_l).
    rewrite Eu in X. apply lookup_singleton_Some in X as [<- <-]. done. }
  assert (Tk : forall j, length q < j -> (q ++ [c]) `prefix_of` take j q').
  { intros j Lj. rewrite (pre_take _ _ Pqc'). rewrite app_length. cbn [length]. rewrite <- (take_take q' (length q + 1) j) || idtac.
    replace (take (length q + 1) q') with (take (length q + 1) (take j q')); [apply take_pre|]. rewrite take_take. f_equal. lia. }
  split; cbn [set_partial rs_version rs_partial rs_fnodes rs_store].
  - apply (ri_version I).
  - pose proof (prefix_length _ _ Pk) as L. rewrite app_length, key_nibbles_length in L. cbn in L. lia.
  - split; [done|]. intros j x Hx. destruct (decide (j < length q)) as [L1|L1]; [|destruct (decide (j = length q)) as [->|N1]; [|destruct (decide (j = length q')) as [->|N2]]].
    + rewrite lookup_app_l, list_lookup_insert_ne in Hx by (rewrite ?insert_length; lia). destruct (Ch _ _ Hx) as [K' C'].
      assert (T : take j q' = take j q). { destruct Pqq as [z ->]. by rewrite take_app_le by lia. }
      assert (Tq : q' !! j = q !! j). { destruct Pqq as [z ->]. by rewrite lookup_app_l by lia. }
      unfold ii_ok. by rewrite T, Tq.
    + rewrite lookup_app_l, list_lookup_insert in Hx by (rewrite ?insert_length; lia). injection Hx as <-.
      assert (T : take (length q) q' = q). { symmetry. by apply pre_take. }
      assert (Tq : q' !! length q = Some c). { destruct Pqc' as [z ->]. rewrite lookup_app_l by (rewrite app_length; cbn; lia). by rewrite lookup_app_r, Nat.sub_diag by lia. }
      unfold ii_ok. rewrite T, Tq. split; [done|]. intros n. cbn [ii_set ii_children]. destruct (decide (Some c = Some n)) as [[= <-]|Ne].
      * by rewrite lookup_insert.
      * rewrite lookup_insert_ne by congruence. apply C.
    + rewrite lookup_app_r in Hx by (rewrite insert_length; lia). rewrite insert_length, Lp in Hx. rewrite lookup_app_r in Hx by lia.
      replace (length q' - Datatypes.S (length q) - length chain) with 0 in Hx by lia. injection Hx as <-. unfold ii_ok. rewrite take_ge by lia. split; [done|].
      intros n. cbn [ii_set ii_children ii_empty]. rewrite decide_False by (by rewrite lookup_ge_None_2 by lia). destruct (decide (n = e)) as [->|Ne].
      * rewrite lookup_insert. symmetry. apply cinfo_leaf, Sub; [by apply prefix_app_r|done].
      * rewrite lookup_insert_ne, lookup_empty by done. symmetry. apply cinfo_none, Off; [by apply prefix_app_r|]. intros P. apply Ne. by eapply pre_snoc_eq.
    + assert (Lx : j < length q') by (apply lookup_lt_Some in Hx; rewrite Lps in Hx; lia).
      rewrite lookup_app_r in Hx by (rewrite insert_length; lia). rewrite insert_length, Lp in Hx. rewrite lookup_app_l in Hx by lia.
      destruct (Hch (j - Datatypes.S (length q)) ltac:(lia)) as (n & E1 & E2). rewrite Hx in E2. injection E2 as ->.
      assert (T : (q ++ [c]) ++ take (j - Datatypes.S (length q)) rem = take j q').
      { rewrite Eq, take_app_ge by (rewrite app_length; cbn; lia). f_equal. rewrite app_length, take_take. cbn [length]. f_equal. lia. }
      assert (Tq : q' !! j = Some n).
      { rewrite Eq, lookup_app_r by (rewrite app_length; cbn; lia). rewrite app_length. cbn [length]. rewrite lookup_take by lia. rewrite <- E1. f_equal. lia. }
      unfold ii_ok. rewrite T, Tq. split; [done|]. intros m. cbn [ii_set ii_children ii_empty]. destruct (decide (Some n = Some m)) as [[= <-]|Ne].
      * by rewrite lookup_insert.
      * rewrite lookup_insert_ne, lookup_empty by congruence. symmetry. apply cinfo_none, Off; [apply prefix_app_r, Tk; lia|].
        intros P. apply Ne. rewrite <- Tq. by eapply pre_take_snoc.
  - intros j c' n Hj Ln. destruct (decide (j < length q)) as [L1|L1]; [|destruct (decide (j = length q)) as [->|N1]].
    + destruct Pqq as [z ->]. rewrite lookup_app_l in Hj by lia. rewrite take_app_le by lia. by eapply (ri_rmost I).
    + rewrite <- (pre_take _ _ Pqq). apply Rm. destruct Pqc' as [z ->]. rewrite lookup_app_l in Hj by (rewrite app_length; cbn; lia).
      rewrite lookup_app_r, Nat.sub_diag in Hj by lia. by injection Hj as ->.
    + apply Off; [apply prefix_app_r, Tk; lia|]. intros P. pose proof (lookup_lt_Some _ _ _ Hj). 
      pose proof (pre_take_snoc j q' (key_nibbles k) n Pq' ltac:(lia) P) as X. rewrite Hj in X. injection X as ->. lia.
  - intros G. by apply (ri_disj I).
  - intros G w p nd. change (all_nodes _) with (all_nodes rs). rewrite (ri_nodes I G). 
    assert (X : fr S q (Some (q ++ [c])) p <-> fr S q' (Some (q' ++ [e])) p); [|by rewrite X].
    split.
    + intros ((O1 & O2) & P & Ne).
      assert (Np : ~ p `prefix_of` key_nibbles k).
      { intros Pp. destruct (pre_cmp p q (key_nibbles k) c Pp Pqc) as [|P']; [done|]. destruct (decide (q ++ [c] = p)) as [E|N]; [by rewrite E in Ne|].
        destruct (O2 _ P' N) as [Z|Z]; [by apply pre_snoc_not in Z|]. rewrite Eu, map_size_singleton in Z. lia. }
      split; [|split].
      * split; [done|]. intros r R1 R2. destruct (O2 r R1 R2) as [Z|Z]; [left; by etrans|by right].
      * intros P'. apply Np. by etrans.
      * intros [= <-]. done.
    + intros ((O1 & O2) & P & Ne).
      assert (Np : ~ p `prefix_of` key_nibbles k).
      { intros Pp. destruct (pre_cmp p q' (key_nibbles k) e Pp Pk) as [|P']; [done|]. destruct (decide (q' ++ [e] = p)) as [E|N]; [by rewrite E in Ne|].
        destruct (O2 _ P' N) as [Z|Z]; [by apply pre_snoc_not in Z|]. rewrite (Sub (q' ++ [e])), map_size_singleton in Z; [lia|by apply prefix_app_r|done]. }
      split; [|split].
      * split; [done|]. intros r R1 R2. destruct (O2 r R1 R2) as [Z|Z]; [|by right]. destruct (pre_cmp r q q' c Z Pqc') as [|P']; [by left|].
        exfalso. apply O1. apply Off; [by etrans|done].
      * intros P'. apply P. by etrans.
      * intros [= <-]. done.
Qed.

Definition before S k : Prop := forall k' h', S !! k' = Some h' -> key_lt k' k.
Lemma before_notin S k : before S k -> S !! k = None.
Proof. intros B. destruct (S !! k) eqn:E; [|done]. by destruct (key_lt_irrefl k (B _ _ E)). Qed.
(** the leaf added last is either the rightmost child of the lowest partial node, or there is none yet *)
Definition leafy (rs : rstate) S q (ex : option (list nibble)) : Prop :=
  (0 < rs_num rs /\ exists c k h, ex = Some (q ++ [c]) /\ U (q ++ [c]) S = {[ k := h ]} /\
     forall n, (nib_to_N c < nib_to_N n)%N -> U (q ++ [n]) S = ∅) \/ (rs_num rs = 0 /\ ex = None).
Lemma freeze_leafy g rs S q ex : RI g rs S q ex -> leafy rs S q ex ->
  exists rs', freeze_previous_leaf rs = Ok rs' /\ RI g rs' S q None /\ same_rest rs rs' /\ rs_partial rs' = rs_partial rs.
Proof.
  intros I [(Hn & c & k & h & -> & Eu & R)|[Hn ->]].
  - by eapply freeze_prev_ok.
  - exists rs. unfold freeze_previous_leaf. rewrite Hn. done.
Qed.
Definition added g rs S (k2 : key) (vh : vhash) (o : outcome rstate) : Prop :=
  exists rs' q' c', o = Ok rs' /\ RI g rs' (<[ k2 := vh ]> S) q' (Some (q' ++ [c'])) /\ U (q' ++ [c']) (<[ k2 := vh ]> S) = {[ k2 := vh ]} /\
    (q' <> [] -> 2 <= size (U q' (<[ k2 := vh ]> S))) /\ same_rest rs rs'.
Lemma two_size {A} (M : gmap key A) k1 x1 k2 x2 : M !! k1 = Some x1 -> M !! k2 = Some x2 -> k1 <> k2 -> 2 <= size M.
Proof.
  intros E1 E2 N. destruct (size_cases M) as [->|[(k & h & ->)|]]; [done| |done].
  apply lookup_singleton_Some in E1 as [-> _]. apply lookup_singleton_Some in E2 as [-> _]. done.
Qed.
Lemma place_ok g rs S q n k2 vh : RI g rs S q None -> (q ++ [n]) `prefix_of` key_nibbles k2 -> U (q ++ [n]) S = ∅ -> before S k2 -> (q <> [] -> U q S <> ∅) ->
  added g rs S k2 vh (ps ← set_child_at (rs_partial rs) (length q) n (CILeaf (LeafNode k2 vh)); Ok (set_partial rs ps)).
Proof.
  intros I P E B Ne. pose proof (before_notin _ _ B) as Es. destruct (set_leaf_ok g rs S q n k2 vh I P E Es) as (ps & -> & I'). rewrite bind_Ok.
  exists (set_partial rs ps), q, n. split; [done|]. split; [done|]. split; [by apply U_insert_empty|]. split; [|done].
  intros Nq. specialize (Ne Nq). apply U_nonempty in Ne as (x & y & Ex & Px). eapply (two_size _ x y k2 vh).
  - apply U_lookup. split; [|done]. rewrite lookup_insert_ne; [done|]. intros <-. congruence.
  - apply U_lookup. split; [apply lookup_insert|]. by eapply prefix_snoc_l.
  - intros ->. congruence.
Qed.
Lemma added_rest g rs rs1 S k2 vh o : same_rest rs rs1 -> added g rs1 S k2 vh o -> added g rs S k2 vh o.
Proof. intros R (rs' & q' & c' & ? & ? & ? & ? & ?). exists rs', q', c'. repeat (split; [done|]). by eapply same_rest_trans. Qed.

(** the new key leaves the path of the partial nodes *)
Lemma add_up_eq g rs S q ex k2 vh j : RI g rs S q ex -> before S k2 -> j < length q -> take j q = take j (key_nibbles k2) ->
  q !! j <> key_nibbles k2 !! j -> U q S <> ∅ -> exists n, key_nibbles k2 !! j = Some n /\ U (take j q ++ [n]) S = ∅ /\
  add_one H rs k2 vh = (rs ← rfreeze H rs (j + 1); ps ← set_child_at (rs_partial rs) j n (CILeaf (LeafNode k2 vh)); Ok (set_partial rs ps)).
Proof.
  intros I B Lj E Ne Hm. unfold add_one. rewrite (walk_ok g rs S q ex k2 vh j I ltac:(lia) E).
  pose proof (ri_len I) as Lq. destruct (lookup_lt_is_Some_2 (key_nibbles k2) j) as [n En]; [rewrite key_nibbles_length; lia|].
  destruct (lookup_lt_is_Some_2 q j Lj) as [c Ec]. rewrite En, Ec in Ne. exists n. split; [done|].
  erewrite (drop_S (key_nibbles k2)) by exact En. cbn [add_loop]. rewrite take_length. replace (j `min` length q) with j by lia.
  destruct (ri_chain I) as [Lp Ch]. destruct (lookup_lt_is_Some_2 (rs_partial rs) j ltac:(lia)) as [i Ei]. rewrite Ei. cbn [unwrap]. rewrite bind_Ok.
  destruct (Ch _ _ Ei) as [_ C]. rewrite C, decide_False by congruence.
  assert (Pn : (take j q ++ [n]) `prefix_of` key_nibbles k2) by (rewrite E; by apply take_snoc_pre).
  assert (Lt : (nib_to_N c < nib_to_N n)%N).
  { destruct (N.lt_trichotomy (nib_to_N c) (nib_to_N n)) as [?|[?%nib_to_N_inj|L]]; [done|congruence|]. exfalso.
    apply U_nonempty in Hm as (x & y & Ex & Px). apply (key_lt_irrefl x). eapply key_lt_trans; [by eapply B|].
    eapply key_lt_nib; [exact Pn| |exact L]. etrans; [by apply take_snoc_pre|done]. }
  pose proof (ri_rmost I _ _ _ Ec Lt) as Eu. rewrite cinfo_none by done. done.
Qed.
Lemma add_up g rs S q ex k2 vh j : RI g rs S q ex -> leafy rs S q ex -> before S k2 -> j < length q -> take j q = take j (key_nibbles k2) ->
  q !! j <> key_nibbles k2 !! j -> 2 <= size (U q S) -> added g rs S k2 vh (add_one H rs k2 vh).
Proof.
  intros I Lf B Lj E Ne Hm. destruct (add_up_eq g rs S q ex k2 vh j I B Lj E Ne) as (n & En & Eu & ->); [by apply U_many_ne|].
  assert (Pn : (take j q ++ [n]) `prefix_of` key_nibbles k2) by (rewrite E; by apply take_snoc_pre).
  unfold rfreeze. destruct (freeze_leafy _ _ _ _ _ I Lf) as (rs1 & -> & I1 & R1 & Ep). rewrite bind_Ok.
  unfold freeze_internal_nodes. rewrite Ep, (proj1 (ri_chain I)).
  destruct (freeze_internal_ok g (Datatypes.S (length q) - (j + 1)) rs1 S q I1) as (rs2 & -> & I2 & R2); [lia|done|]. rewrite bind_Ok.
  replace (length q - (Datatypes.S (length q) - (j + 1))) with j in I2 by lia.
  eapply added_rest; [exact R1|]. eapply added_rest; [exact R2|].
  assert (Lt' : length (take j q) = j) by (rewrite take_length; lia).
  pose proof (place_ok g rs2 S (take j q) n k2 vh) as X. rewrite Lt' in X.
  apply X; [done|done|done|done|]. intros _. apply (U_app_ne _ (drop j q)). rewrite take_drop. by apply U_many_ne.
Qed.
(** a partial node with a single leaf cannot be frozen *)
Lemma freeze_single g rs S q ex k h count rs' : RI g rs S q ex -> U q S = {[ k := h ]} -> freeze_internal H (Datatypes.S count) rs <> Ok rs'.
Proof.
  intros I Eu. destruct (ri_bottom _ _ _ _ _ I) as (i & _ & El & _ & C & _). cbn [freeze_internal]. rewrite El. cbn [unwrap]. rewrite bind_Ok. unfold freeze_top, into_internal_node.
  rewrite (ri_version I). destruct (into_children_ok S q _ all_nibbles C all_nibbles_nodup) as (r & -> & L). rewrite bind_Ok.
  assert (r = children_of S vv q) as ->.
  { apply map_eq. intros n. rewrite children_of_lookup, L, decide_True by apply all_nibbles_complete. done. }
  destruct (internal_new (children_of S vv q)) as [nd| |] eqn:E; [|done|done]. exfalso. apply internal_new_wf in E as [_ []].
  assert (Ek : U q S !! k = Some h) by (rewrite Eu; apply lookup_singleton). apply U_lookup in Ek as [Ek Pk].
  destruct (prefix_next q k Pk (ri_len I)) as [n Pn].
  assert (Eun : U (q ++ [n]) S = {[ k := h ]}).
  { apply map_eq. intros x. apply option_eq. intros y. rewrite U_lookup. split.
    - intros [X1 X2]. rewrite <- Eu. apply U_lookup. split; [done|]. by eapply prefix_snoc_l.
    - intros X. apply lookup_singleton_Some in X as [<- <-]. done. }
  destruct (child_of_some H S vv q n) as (c & Ec & Hc); [rewrite Eun; apply single_ne|].
  exists n, c. split; [|split; [by rewrite children_of_lookup|]].
  - apply Permutation_singleton_r. apply NoDup_Permutation; [apply NoDup_filter; unfold nibs; apply NoDup_filter, all_nibbles_nodup || apply all_nibbles_nodup|apply NoDup_singleton|].
    intros m. rewrite pres_in, elem_of_list_singleton. split.
    + intros [_ X]. apply U_nonempty in X as (x & y & Ex & Px). assert (Y : U q S !! x = Some y) by (apply U_lookup; split; [done|]; by eapply prefix_snoc_l).
      rewrite Eu in Y. apply lookup_singleton_Some in Y as [<- <-]. by eapply pre_snoc_eq.
    + intros ->. split; [rewrite nibs_nil; apply all_nibbles_complete|]. rewrite Eun. apply single_ne.
  - unfold child_of in Ec. rewrite Eun, map_size_singleton in Ec. by injection Ec as <-.
Qed.
(** the new key is a new child of the lowest partial node *)
Lemma add_here g rs S q ex k2 vh n : RI g rs S q ex -> leafy rs S q ex -> before S k2 -> (q ++ [n]) `prefix_of` key_nibbles k2 -> U (q ++ [n]) S = ∅ ->
  (q <> [] -> U q S <> ∅) -> added g rs S k2 vh (add_one H rs k2 vh).
Proof.
  intros I Lf B Pn Eu Ne. unfold add_one. pose proof (prefix_snoc_l _ _ _ Pn) as Pq. pose proof (pre_take _ _ Pq) as Eq.
  rewrite (walk_ok g rs S q ex k2 vh (length q) I ltac:(lia)) by (rewrite take_ge by lia; done).
  assert (En : key_nibbles k2 !! length q = Some n). { destruct Pn as [z ->]. rewrite <- app_assoc, lookup_app_r, Nat.sub_diag by lia. done. }
  erewrite (drop_S (key_nibbles k2)) by exact En. cbn [add_loop]. rewrite take_ge by lia.
  destruct (ri_bottom _ _ _ _ _ I) as (i & -> & _ & _ & C & _). cbn [unwrap]. rewrite bind_Ok, C, cinfo_none by done.
  unfold rfreeze. destruct (freeze_leafy _ _ _ _ _ I Lf) as (rs1 & -> & I1 & R1 & Ep). rewrite bind_Ok.
  unfold freeze_internal_nodes. rewrite (proj1 (ri_chain I1)). replace (Datatypes.S (length q) - (length q + 1)) with 0 by lia. cbn [freeze_internal]. rewrite bind_Ok.
  eapply added_rest; [exact R1|]. by apply place_ok.
Qed.
(** the new key meets a leaf *)
Lemma add_split g rs S q c k h k2 vh : RI g rs S q (Some (q ++ [c])) -> U (q ++ [c]) S = {[ k := h ]} ->
  (forall n, (nib_to_N c < nib_to_N n)%N -> U (q ++ [n]) S = ∅) -> 0 < rs_num rs \/ ~ g ->
  before S k2 -> (q ++ [c]) `prefix_of` key_nibbles k2 -> added g rs S k2 vh (add_one H rs k2 vh).
Proof.
  intros I Eu Rm Num B Pn. unfold add_one. pose proof (prefix_snoc_l _ _ _ Pn) as Pq. pose proof (pre_take _ _ Pq) as Eq.
  rewrite (walk_ok g rs S q _ k2 vh (length q) I ltac:(lia)) by (rewrite take_ge by lia; done).
  assert (En : key_nibbles k2 !! length q = Some c). { destruct Pn as [z ->]. rewrite <- app_assoc, lookup_app_r, Nat.sub_diag by lia. done. }
  erewrite (drop_S (key_nibbles k2)) by exact En. cbn [add_loop]. rewrite take_ge by lia.
  destruct (ri_bottom _ _ _ _ _ I) as (i & -> & _ & _ & C & _). cbn [unwrap]. rewrite bind_Ok, C, (cinfo_leaf _ _ _ _ Eu).
  pose proof (proj1 (ri_chain I)) as Lp. rewrite Lp. cbn [Nat.sub]. rewrite Nat.sub_0_r, Nat.eqb_refl. cbn [assert_]. rewrite bind_Ok.
  assert (Ek : S !! k = Some h /\ (q ++ [c]) `prefix_of` key_nibbles k) by (apply U_lookup; rewrite Eu; apply lookup_singleton). destruct Ek as [Ek Pk].
  assert (Lk : key_lt k k2) by (by eapply B). assert (Nk : k <> k2) by (intros ->; by apply key_lt_irrefl in Lk).
  destruct (C48_order_by_first_nibble k k2 Nk) as (cl & e & m & Lcl & Ecl & Same & Ge & Gm & Nem & Lem).
  apply Lem in Lk as Lem'. clear Lem.
  rewrite get_nibble_lookup in Ge, Gm. 
  assert (Ge' : key_nibbles k !! cl = Some e) by (destruct (key_nibbles k !! cl); [by injection Ge as ->|done]).
  assert (Gm' : key_nibbles k2 !! cl = Some m) by (destruct (key_nibbles k2 !! cl); [by injection Gm as ->|done]).
  assert (Tk : take cl (key_nibbles k) = take cl (key_nibbles k2)).
  { apply list_eq. intros j. destruct (decide (j < cl)) as [Lj|Lj]; [|rewrite !lookup_ge_None_2 by (rewrite take_length; lia); done].
    rewrite !lookup_take by done. specialize (Same j Lj). rewrite !get_nibble_lookup in Same.
    destruct (lookup_lt_is_Some_2 (key_nibbles k) j) as [a Ea]; [rewrite key_nibbles_length; lia|]. destruct (lookup_lt_is_Some_2 (key_nibbles k2) j) as [b Eb]; [rewrite key_nibbles_length; lia|].
    rewrite Ea, Eb in *. by injection Same as ->. }
  assert (Lq : length q < cl).
  { destruct (decide (length q < cl)); [done|]. exfalso. apply Nem. 
    assert (X : (q ++ [c]) !! cl = Some e). { destruct Pk as [z Z]. rewrite Z in Ge'. by rewrite lookup_app_l in Ge' by (rewrite app_length; cbn; lia). }
    assert (Y : (q ++ [c]) !! cl = Some m). { destruct Pn as [z Z]. rewrite Z in Gm'. by rewrite lookup_app_l in Gm' by (rewrite app_length; cbn; lia). }
    congruence. }
  unfold insert_at_leaf. cbn [ln_key]. rewrite Ecl, (ri_version I).
  set (q' := take cl (key_nibbles k2)).
  assert (Pq' : (q ++ [c]) `prefix_of` q').
  { unfold q'. rewrite (pre_take _ _ Pn). rewrite app_length. cbn [length]. replace (take (length q + 1) (key_nibbles k2)) with (take (length q + 1) (take cl (key_nibbles k2))); [apply take_pre|].
    rewrite take_take. f_equal. lia. }
  assert (Eq' : q' = (q ++ [c]) ++ take (cl - length (rs_partial rs)) (drop (Datatypes.S (length q)) (key_nibbles k2))).
  { unfold q'. rewrite Lp. rewrite (pre_take _ _ Pn) at 1. rewrite app_length. cbn [length]. replace (length q + 1) with (Datatypes.S (length q)) by lia.
    rewrite <- (take_drop (Datatypes.S (length q)) (key_nibbles k2)) at 1. rewrite take_app_ge by (rewrite take_length; lia). rewrite take_length, key_nibbles_length.
    by replace (Datatypes.S (length q) `min` 64) with (Datatypes.S (length q)) by lia. }
  assert (Pe : (q' ++ [e]) `prefix_of` key_nibbles k) by (unfold q'; rewrite <- Tk; by apply take_snoc_pre).
  assert (Pm : (q' ++ [m]) `prefix_of` key_nibbles k2) by (unfold q'; by apply take_snoc_pre).
  destruct (deepen_ok g rs S q c k h (drop (Datatypes.S (length q)) (key_nibbles k2)) (cl - length (rs_partial rs)) e q' I Eu) as (ps & chain & -> & -> & I1 & Lps);
    [rewrite drop_length, key_nibbles_length; lia|done|done|done|].
  rewrite !bind_Ok. cbv beta iota. rewrite (get_nibble_lookup k), Ge'. cbn [unwrap]. rewrite bind_Ok. cbn [set_partial rs_version].
  set (ps1 := ps ++ chain ++ _) in *. set (rs1 := set_partial rs ps1) in *.
  change (RS _ _ ps1 _ _ _ _ _) with rs1. change (rs_partial rs1) with ps1. rewrite Lps.
  assert (Emq : U (q' ++ [m]) S = ∅).
  { apply map_eq. intros x. rewrite lookup_empty. destruct (U (q' ++ [m]) S !! x) as [y|] eqn:X; [|done]. apply U_lookup in X as [X1 X2].
    assert (Y : U (q ++ [c]) S !! x = Some y) by (apply U_lookup; split; [done|]; etrans; [exact Pq'|]; by eapply prefix_snoc_l).
    rewrite Eu in Y. apply lookup_singleton_Some in Y as [<- <-]. exfalso. apply Nem. by eapply pre_snoc_eq. }
  assert (Ueq : U (q' ++ [e]) S = {[ k := h ]}).
  { apply map_eq. intros x. apply option_eq. intros y. rewrite U_lookup. split.
    - intros [X1 X2]. rewrite <- Eu. apply U_lookup. split; [done|]. etrans; [exact Pq'|]. by eapply prefix_snoc_l.
    - intros X. rewrite lookup_singleton_Some in X. destruct X as [<- <-]. done. }
  unfold rfreeze.
  assert (F : exists rs2, freeze_previous_leaf rs1 = Ok rs2 /\ RI g rs2 S q' None /\ same_rest rs1 rs2 /\ rs_partial rs2 = rs_partial rs1).
  { destruct (decide (rs_num rs = 0)) as [Hz|Hz].
    - exists rs1. unfold freeze_previous_leaf. change (rs_num rs1) with (rs_num rs). rewrite Hz. split; [done|]. split; [|done].
      destruct Num as [|Ng]; [lia|]. pose proof (RI_chain_only _ _ _ _ _ None I1) as I1'.
      split; [apply (ri_version I1')|apply (ri_len I1')|apply (ri_chain I1')|apply (ri_rmost I1')|done|done].
    - eapply freeze_prev_ok; [exact I1|exact Ueq| |change (rs_num rs1) with (rs_num rs); lia].
      intros n Ln. apply map_eq. intros x. rewrite lookup_empty. destruct (U (q' ++ [n]) S !! x) as [y|] eqn:X; [|done]. apply U_lookup in X as [X1 X2].
      assert (Y : U (q ++ [c]) S !! x = Some y) by (apply U_lookup; split; [done|]; etrans; [exact Pq'|]; by eapply prefix_snoc_l).
      rewrite Eu in Y. apply lookup_singleton_Some in Y as [<- <-]. exfalso. assert (e = n) as -> by (by eapply pre_snoc_eq). lia. }
  destruct F as (rs2 & -> & I2 & R2 & Ep2). rewrite bind_Ok. unfold freeze_internal_nodes. rewrite Ep2. change (rs_partial rs1) with ps1.
  rewrite Lps, Nat.sub_diag. cbn [freeze_internal]. rewrite bind_Ok. rewrite (get_nibble_lookup k2), Gm'. cbn [unwrap]. rewrite bind_Ok.
  unfold nib_ltb. replace (nib_to_N e <? nib_to_N m)%N with true by (symmetry; by apply N.ltb_lt). cbn [assert_]. rewrite bind_Ok.
  rewrite Ep2. change (rs_partial rs1) with ps1. rewrite Lps. cbn [Nat.sub]. rewrite Nat.sub_0_r. replace ps1 with (rs_partial rs2) by done.
  apply (added_rest g rs rs2); [by eapply same_rest_trans; [|exact R2]|].
  apply place_ok; [done|done|done|done|]. intros _. apply (U_app_ne _ [e]). rewrite Ueq. apply single_ne.
Qed.
End facts.
