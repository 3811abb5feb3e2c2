(** Recovering a restore from the store (Restore.v: restore_new). *)
From Coq Require Import Strings.String.
From Verif Require Import Base Spec NodeType ProofDef TreeCache Mock Restore KeyFacts SmtFacts ProofFacts NodeFacts Canon CanonSib PutFacts KeyOrder OrderFacts ThmNode ValueFacts ReadFacts RestoreFacts RestoreFacts2 RestoreTop.
From Coq Require Import Lia.
Local Opaque Spec.smt.

Lemma least_nat (P : nat -> Prop) `{forall n, Decision (P n)} n : P n -> exists j, j <= n /\ P j /\ forall i, i < j -> ~ P i.
Proof.
  intros Pn. assert (G : forall m, (forall i, i < m -> ~ P i) \/ exists j, j < m /\ P j /\ forall i, i < j -> ~ P i).
  { induction m as [|m [IH|(j & L & Pj & F)]]; [left; intros i Hi; lia| |right; exists j; split; [lia|done]].
    destruct (decide (P m)) as [Pm|Nm]; [right; exists m; split; [lia|done]|left]. intros i Hi. destruct (decide (i = m)) as [->|]; [done|]. apply IH. lia. }
  destruct (G (Datatypes.S n)) as [F|(j & L & Pj & F)]; [exfalso; apply (F n); [lia|done]|]. exists j. split; [lia|done].
Qed.

(** get_rightmost_leaf *)
Lemma rightmost_loop_ok l : forall acc, match rightmost_loop l acc with
  | None => acc = None /\ forall nk lf, (nk, Leaf lf) ∉ l
  | Some (nk, lf) => (acc = Some (nk, lf) \/ (nk, Leaf lf) ∈ l) /\ (forall nk' lf', (nk', Leaf lf') ∈ l -> key_le (ln_key lf') (ln_key lf)) /\
      (forall nk' lf', acc = Some (nk', lf') -> key_le (ln_key lf') (ln_key lf))
  end.
Proof.
  induction l as [|[nk nd] l IH]; intros acc.
  - cbn. destruct acc as [[nk lf]|]; [|split; [done|]; intros nk lf X; by apply elem_of_nil in X]. split; [by left|]. split; [intros ? ? X; by apply elem_of_nil in X|].
    intros ? ? [= -> ->]. by left.
  - destruct nd as [|i|lf0].
    + cbn [rightmost_loop]. specialize (IH acc). destruct (rightmost_loop l acc) as [[nk1 lf1]|].
      * destruct IH as (A & B & C). split; [destruct A; [by left|right; by right]|]. split; [|done]. intros ? ? X. apply elem_of_cons in X as [[=]|X]; eauto.
      * destruct IH as [A B]. split; [done|]. intros ? ? X. apply elem_of_cons in X as [[=]|X]; by eapply B.
    + cbn [rightmost_loop]. specialize (IH acc). destruct (rightmost_loop l acc) as [[nk1 lf1]|].
      * destruct IH as (A & B & C). split; [destruct A; [by left|right; by right]|]. split; [|done]. intros ? ? X. apply elem_of_cons in X as [[=]|X]; eauto.
      * destruct IH as [A B]. split; [done|]. intros ? ? X. apply elem_of_cons in X as [[=]|X]; by eapply B.
    + cbn [rightmost_loop]. set (acc' := match acc with None => _ | Some _ => _ end). specialize (IH acc').
      assert (Ac : acc' = Some (nk, lf0) /\ (forall nk' lf', acc = Some (nk', lf') -> key_le (ln_key lf') (ln_key lf0)) \/
                   (exists nk1 lf1, acc' = Some (nk1, lf1) /\ acc = acc' /\ key_le (ln_key lf0) (ln_key lf1))).
      { unfold acc'. destruct acc as [[nk1 lf1]|]; [|by left]. destruct (key_ltb (ln_key lf1) (ln_key lf0)) eqn:E.
        - left. split; [done|]. intros ? ? [= -> ->]. right. by apply key_ltb_lt.
        - right. exists nk1, lf1. split; [done|]. split; [done|]. by apply key_ltb_ge. }
      destruct (rightmost_loop l acc') as [[nk1 lf1]|].
      * destruct IH as (A & B & C). destruct Ac as [[Ea Ha]|(nk2 & lf2 & Ea & Eq & Ha)].
        -- rewrite Ea in A, C. specialize (C _ _ eq_refl). split; [destruct A as [[= -> ->]|A]; right; [by left|by right]|]. split.
           ++ intros ? ? X. apply elem_of_cons in X as [[= -> ->]|X]; eauto.
           ++ intros ? ? X. etrans; [by eapply Ha|done].
        -- split; [destruct A as [A|A]; [left; congruence|right; by right]|]. split.
           ++ intros ? ? X. apply elem_of_cons in X as [[= -> ->]|X]; [|eauto]. etrans; [exact Ha|]. by apply (C nk2).
           ++ intros ? ? X. apply (C nk'). congruence.
      * destruct IH as [A B]. exfalso. destruct Ac as [[Ea _]|(? & ? & Ea & _)]; congruence.
Qed.
Lemma store_rightmost_ok s : match store_rightmost s with
  | None => forall nk lf, st_nodes s !! nk <> Some (Leaf lf)
  | Some (nk, lf) => st_nodes s !! nk = Some (Leaf lf) /\ forall nk' lf', st_nodes s !! nk' = Some (Leaf lf') -> key_le (ln_key lf') (ln_key lf)
  end.
Proof.
  unfold store_rightmost. pose proof (rightmost_loop_ok (map_to_list (st_nodes s)) None) as R. destruct (rightmost_loop (map_to_list (st_nodes s)) None) as [[nk lf]|].
  - destruct R as ([?|A] & B & _); [done|]. apply elem_of_map_to_list in A. split; [done|]. intros nk' lf' E. apply (B nk'). by apply elem_of_map_to_list.
  - destruct R as [_ B]. intros nk lf E. by apply (B nk lf), elem_of_map_to_list.
Qed.

Section facts.
Context (H : list byte -> bytes32) (v : version).
Implicit Types (X Y W : gmap key value) (q : list nibble) (S : gmap key vhash).
Notation vv := (fun _ : list nibble => v).
Notation nodes_are s S q := (forall w p nd, st_nodes s !! (w, p) = Some nd <-> w = v /\ fr S q None p /\ nd = node_at H S vv p) (only parsing).

(** every key has a leaf *)
Lemma leaf_exists S q k h : length q < 64 -> S !! k = Some h -> exists p, fr S q None p /\ U p S = {[ k := h ]}.
Proof.
  intros Lq Ek. set (P j := ~ take j (key_nibbles k) `prefix_of` q /\ size (U (take j (key_nibbles k)) S) <= 1).
  assert (P64 : P 64).
  { split.
    - rewrite take_ge by (rewrite key_nibbles_length; lia). intros L%prefix_length. rewrite key_nibbles_length in L. lia.
    - destruct (decide (size (U (take 64 (key_nibbles k)) S) <= 1)) as [|N]; [done|]. pose proof (U_many_len (take 64 (key_nibbles k)) S ltac:(lia)) as L. rewrite take_length, key_nibbles_length in L. lia. }
  destruct (least_nat P 64 P64) as (j & Lj & [Pj1 Pj2] & F).
  assert (Uk : U (take j (key_nibbles k)) S !! k = Some h) by (apply U_lookup; split; [done|apply take_pre]).
  assert (Eu : U (take j (key_nibbles k)) S = {[ k := h ]}).
  { destruct (size_cases (U (take j (key_nibbles k)) S)) as [E|[(x & y & E)|E]]; [by rewrite E in Uk| |lia]. rewrite E in Uk. by apply lookup_singleton_Some in Uk as [-> ->]. }
  exists (take j (key_nibbles k)). split; [|done]. split; [|done]. split; [rewrite Eu; apply single_ne|]. intros r R1 R2.
  assert (Er : r = take (length r) (key_nibbles k)) by (apply pre_take; etrans; [exact R1|apply take_pre]).
  assert (Lr : length r < j).
  { destruct (decide (length r < j)); [done|]. exfalso. apply R2. pose proof (prefix_length _ _ R1) as L. rewrite take_length, key_nibbles_length in L. rewrite Er. f_equal. lia. }
  specialize (F _ Lr). unfold P in F. rewrite <- Er in F. destruct (decide (r `prefix_of` q)); [by left|]. right.
  destruct (decide (size (U r S) <= 1)); [|lia]. tauto.
Qed.

(** the upward walk *)
Lemma recover_up_ok s S q : nodes_are s S q -> forall ext pl, fr S q None pl -> (q ++ ext) `prefix_of` pl -> q ++ ext <> pl ->
  recover_up s v (rev (q ++ ext)) = Ok (rev q).
Proof.
  intros N ext. induction ext as [|a ext IH] using rev_ind; intros pl F Pp Np.
  - rewrite app_nil_r in *. destruct (rev q) as [|b rq] eqn:E; cbn [recover_up].
    + destruct (st_nodes s !! (v, rev [])) eqn:X; [|done]. exfalso. apply N in X as (_ & (_ & Z & _) & _). apply Z. apply prefix_nil.
    + rewrite <- E, rev_involutive. destruct (st_nodes s !! (v, q)) eqn:X; [|done]. exfalso. apply N in X as (_ & (_ & Z & _) & _). by apply Z.
  - rewrite app_assoc in *. set (p := q ++ ext) in *. rewrite rev_app_distr. cbn [rev app]. cbn [recover_up].
    assert (Fp : fr S q None (p ++ [a])).
    { destruct F as ((O1 & O2) & O3 & _). split; [|split; [|done]].
      - split; [destruct Pp as [z ->]; by eapply U_app_ne|]. intros r R1 R2. apply O2; [by etrans|]. intros ->. apply R2. by apply (anti_symm prefix).
      - intros P. apply (pre_snoc_not p a). etrans; [exact P|]. unfold p. by apply prefix_app_r. }
    assert (E : st_nodes s !! (v, p ++ [a]) = Some (node_at H S vv (p ++ [a]))) by (by apply N).
    cbn [rev]. rewrite rev_involutive, E. apply (IH pl); [done|by eapply prefix_snoc_l|]. intros ->. by apply pre_snoc_not in Pp.
Qed.
(** the children of a node along the path *)
Lemma recover_child_ok s S q p n : nodes_are s S q -> ~ (p ++ [n]) `prefix_of` q -> p `prefix_of` q -> 
  match st_nodes s !! (v, p ++ [n]) with
  | Some nd => exists ci, recover_child H nd = Ok ci /\ cinfo H S (p ++ [n]) = Some ci
  | None => cinfo H S (p ++ [n]) = None
  end.
Proof.
  intros N Np Pp. destruct (st_nodes s !! (v, p ++ [n])) as [nd|] eqn:E.
  - apply N in E as (_ & F & ->). destruct (size_cases (U (p ++ [n]) S)) as [Eu|[(k & h & Eu)|Eu]].
    + destruct F as ((O & _) & _). done.
    + rewrite (node_at_leaf H _ _ _ k h) by done. eexists. split; [done|]. by apply cinfo_leaf.
    + rewrite node_at_internal by done. cbn [recover_child]. rewrite in_hash_canon by (by eapply U_many_len). rewrite bind_Ok. eexists. split; [done|]. by apply cinfo_many.
  - apply cinfo_is_none. destruct (decide (U (p ++ [n]) S = ∅)) as [|Ne]; [done|]. exfalso.
    assert (X : st_nodes s !! (v, p ++ [n]) = Some (node_at H S vv (p ++ [n]))).
    { apply N. split; [done|]. split; [|done]. split; [|split; [done|done]]. split; [done|]. intros r R1 R2.
      destruct (pre_cmp r p (p ++ [n]) n R1) as [P|P]; [done|left; by etrans|]. exfalso. apply R2. by apply (anti_symm prefix). }
    congruence.
Qed.
Lemma recover_children_ok s S q p w : nodes_are s S q -> p `prefix_of` q -> forall l i, (forall n, n ∈ l -> ~ (p ++ [n]) `prefix_of` q) ->
  exists i', recover_children H s v (w, p) l i = Ok i' /\ ii_key i' = ii_key i /\
    forall n, ii_children i' !! n = if decide (n ∈ l) then match cinfo H S (p ++ [n]) with Some c => Some c | None => ii_children i !! n end else ii_children i !! n.
Proof.
  intros N Pp. induction l as [|n l IH]; intros i Np.
  - exists i. split; [done|]. split; [done|]. intros n. by rewrite decide_False by apply not_elem_of_nil.
  - cbn [recover_children]. unfold gen_child. cbn [snd]. pose proof (recover_child_ok s S q p n N (Np n (elem_of_list_here _ _)) Pp) as R.
    assert (Np' : forall m, m ∈ l -> ~ (p ++ [m]) `prefix_of` q) by (intros m Hm; apply Np; by apply elem_of_list_further).
    destruct (st_nodes s !! (v, p ++ [n])) as [nd|].
    + destruct R as (ci & -> & Ec). rewrite bind_Ok. destruct (IH (ii_set i n ci) Np') as (i' & -> & K & C). exists i'. split; [done|]. split; [done|].
      intros m. rewrite C. cbn [ii_set ii_children]. destruct (decide (m = n)) as [->|Ne].
      * rewrite lookup_insert, Ec. rewrite (decide_True (P := n ∈ n :: l)) by apply elem_of_list_here. by destruct (decide (n ∈ l)).
      * rewrite lookup_insert_ne by done. destruct (decide (m ∈ l)) as [Hm|Hm].
        -- rewrite decide_True by (by apply elem_of_list_further). done.
        -- rewrite decide_False; [done|]. rewrite elem_of_cons. tauto.
    + destruct (IH i Np') as (i' & -> & K & C). exists i'. split; [done|]. split; [done|]. intros m. rewrite C.
      destruct (decide (m = n)) as [->|Ne].
      * rewrite R. rewrite (decide_True (P := n ∈ n :: l)) by apply elem_of_list_here. by destruct (decide (n ∈ l)).
      * destruct (decide (m ∈ l)) as [Hm|Hm].
        -- rewrite decide_True by (by apply elem_of_list_further). done.
        -- rewrite decide_False; [done|]. rewrite elem_of_cons. tauto.
Qed.
Lemma recover_node_ok s S q j : nodes_are s S q -> rmost S q -> j <= length q -> exists i, recover_children H s v (v, take j q)
    (match q !! j with Some n => filter (fun m => (nib_to_N m < nib_to_N n)%N) all_nibbles | None => all_nibbles end) (ii_empty (v, take j q)) = Ok i /\
    ii_ok H v S q j (match q !! j with Some n => ii_set i n (CIInternal None 0) | None => i end).
Proof.
  intros N Rm Lj. set (l := match q !! j with Some _ => _ | None => _ end).
  assert (Pj : take j q `prefix_of` q) by (exists (drop j q); by rewrite take_drop).
  assert (Np : forall n, q !! j <> Some n -> ~ (take j q ++ [n]) `prefix_of` q).
  { intros n Hn [z E]. apply Hn. rewrite E. rewrite <- app_assoc. rewrite lookup_app_r; rewrite take_length; [|lia]. by replace (j - j `min` length q) with 0 by lia. }
  assert (Nl : forall n, n ∈ l -> q !! j <> Some n).
  { intros n Hn E. unfold l in Hn. rewrite E in Hn. apply elem_of_list_filter in Hn as [Hn _]. lia. }
  destruct (recover_children_ok s S q (take j q) v N Pj l (ii_empty (v, take j q))) as (i & E & K & C); [intros n Hn; by apply Np, Nl|].
  exists i. split; [done|]. split; [destruct (q !! j); exact K|]. intros n.
  assert (G : q !! j <> Some n -> ii_children i !! n = cinfo H S (take j q ++ [n])).
  { intros Hn. rewrite C. cbn [ii_empty ii_children]. rewrite lookup_empty. destruct (decide (n ∈ l)) as [Hl|Hl]; [by destruct (cinfo H S (take j q ++ [n]))|].
    symmetry. apply cinfo_is_none. destruct (q !! j) as [c|] eqn:Ec.
    - apply (Rm j c); [done|]. destruct (decide (nib_to_N n < nib_to_N c)%N) as [Lt|Ge].
      + destruct Hl. unfold l. apply elem_of_list_filter. split; [done|]. apply all_nibbles_complete.
      + assert (nib_to_N n <> nib_to_N c); [|lia]. intros X. apply Hn. f_equal. symmetry. by apply nib_to_N_inj.
    - destruct Hl. unfold l. apply all_nibbles_complete. }
  destruct (q !! j) as [c|] eqn:Ec.
  - cbn [ii_set ii_children]. destruct (decide (Some c = Some n)) as [[= ->]|Ne]; [by rewrite lookup_insert|]. rewrite lookup_insert_ne by congruence. by apply G.
  - rewrite decide_False by done. by apply G.
Qed.
Lemma recover_loop_ok s S q : nodes_are s S q -> rmost S q -> forall j, j <= length q ->
  exists ps, recover_loop H s v v (rev (take j q)) (q !! j) = Ok ps /\ length ps = j + 1 /\ forall i x, ps !! i = Some x -> ii_ok H v S q i x.
Proof.
  intros N Rm. induction j as [|j IH]; intros Lj.
  - destruct (recover_node_ok s S q 0 N Rm Lj) as (i & E & K). change (rev (take 0 q)) with (@nil nibble). cbn [recover_loop]. change (rev []) with (take 0 q). rewrite E, bind_Ok.
    eexists. split; [done|]. split; [done|]. intros [|i'] x Ex; [|done]. by injection Ex as <-.
  - destruct (recover_node_ok s S q (Datatypes.S j) N Rm Lj) as (i & E & K). destruct (lookup_lt_is_Some_2 q j ltac:(lia)) as [c Ec].
    assert (Er : rev (take (Datatypes.S j) q) = c :: rev (take j q)) by (rewrite (take_S_r _ _ c) by done; by rewrite rev_app_distr).
    rewrite Er. cbn [recover_loop]. rewrite <- Er, rev_involutive. rewrite E, bind_Ok. rewrite <- Ec. destruct (IH ltac:(lia)) as (ps & -> & Lp & Kp). rewrite bind_Ok.
    eexists. split; [done|]. split; [rewrite app_length; cbn; lia|]. intros j' x Ex. apply lookup_app_Some in Ex as [Ex|[Le Ex]]; [by apply Kp|].
    apply list_lookup_singleton_Some in Ex as [Z <-]. replace j' with (Datatypes.S j) by lia. exact K.
Qed.

Lemma between_prefix q y l k : q `prefix_of` key_nibbles y -> q `prefix_of` key_nibbles k -> key_le y l -> key_le l k -> q `prefix_of` key_nibbles l.
Proof.
  intros Py Pk Ly Lk. set (j := lcp q (key_nibbles l)). destruct (decide (j = length q)) as [E|N]; [by apply lcp_full|]. exfalso.
  pose proof (lcp_le_l q (key_nibbles l)) as L. fold j in L. pose proof (prefix_length _ _ Py) as L64. rewrite key_nibbles_length in L64.
  destruct (lookup_lt_is_Some_2 q j ltac:(lia)) as [a Ea]. destruct (lookup_lt_is_Some_2 (key_nibbles l) j) as [b Eb]; [rewrite key_nibbles_length; lia|].
  assert (Nab : a <> b) by (by apply (lcp_lookup_ne q (key_nibbles l))).
  assert (Pb : (take j q ++ [b]) `prefix_of` key_nibbles l).
  { pose proof (lcp_take q (key_nibbles l)) as T. fold j in T. rewrite T, <- take_S_r by done. apply take_pre. }
  assert (Pa : (take j q ++ [a]) `prefix_of` q) by (rewrite <- take_S_r by done; apply take_pre).
  destruct (N.lt_total (nib_to_N a) (nib_to_N b)) as [Lt|[Eq|Lt]].
  - assert (X : key_lt k l) by (eapply key_lt_nib; [etrans; [exact Pa|exact Pk]|exact Pb|done]). by apply key_lt_not_le in X.
  - apply Nab. by apply nib_to_N_inj.
  - assert (X : key_lt l y) by (eapply key_lt_nib; [exact Pb|etrans; [exact Pa|exact Py]|done]). by apply key_lt_not_le in X.
Qed.
Lemma U_none p : U p (∅ : gmap key vhash) = ∅.
Proof. apply map_eq. intros x. rewrite lookup_empty. destruct (U p ∅ !! x) eqn:E; [|done]. by apply U_lookup in E as [? _]. Qed.
Lemma U_delete p k S : U p (delete k S) = delete k (U p S).
Proof.
  apply map_eq. intros x. apply option_eq. intros y. rewrite U_lookup, !lookup_delete_Some, U_lookup. tauto.
Qed.
Lemma U_delete_other p k S : ~ p `prefix_of` key_nibbles k -> U p (delete k S) = U p S.
Proof.
  intros N. rewrite U_delete. apply delete_notin. destruct (U p S !! k) eqn:E; [|done]. by apply U_lookup in E as [_ ?].
Qed.
Lemma fr_delete S q c k h p : U (q ++ [c]) S = {[ k := h ]} -> fr S q (Some (q ++ [c])) p <-> fr (delete k S) q None p.
Proof.
  intros Eu. assert (Pk : (q ++ [c]) `prefix_of` key_nibbles k) by (assert (E : U (q ++ [c]) S !! k = Some h) by (rewrite Eu; apply lookup_singleton); by apply U_lookup in E as [_ ?]).
  assert (Cmp : forall r, r `prefix_of` key_nibbles k -> r `prefix_of` q \/ (q ++ [c]) `prefix_of` r).
  { intros r Pr. destruct (prefix_weak_total r (q ++ [c]) _ Pr Pk) as [X|X]; [|by right]. destruct (pre_cmp r q (q ++ [c]) c X) as [Y|Y]; [done|by left|by right]. }
  assert (Small : forall r, (q ++ [c]) `prefix_of` r -> size (U r S) <= 1).
  { intros r Pr. destruct (decide (size (U r S) <= 1)); [done|]. destruct Pr as [z ->]. pose proof (U_many_up (q ++ [c]) z S ltac:(lia)) as X. rewrite Eu, map_size_singleton in X. lia. }
  split.
  - intros ((O1 & O2) & O3 & O4). assert (Npk : ~ p `prefix_of` key_nibbles k).
    { intros X. destruct (Cmp p X) as [Y|Y]; [done|]. destruct (O2 (q ++ [c]) Y) as [Z|Z]; [congruence|by apply pre_snoc_not in Z|]. rewrite Eu, map_size_singleton in Z. lia. }
    split; [|split; [done|done]]. split; [by rewrite U_delete_other|]. intros r R1 R2. destruct (O2 r R1 R2) as [Z|Z]; [by left|].
    destruct (decide (r `prefix_of` key_nibbles k)) as [X|X]; [|right; by rewrite U_delete_other]. destruct (Cmp r X) as [Y|Y]; [by left|]. specialize (Small r Y). lia.
  - intros ((O1 & O2) & O3 & _). assert (Npk : ~ p `prefix_of` key_nibbles k).
    { intros X. destruct (Cmp p X) as [Y|Y]; [done|]. apply O1. destruct Y as [z ->]. apply (U_app_none (q ++ [c])); [by apply prefix_app_r|]. by rewrite U_delete, Eu, delete_singleton. }
    rewrite U_delete_other in O1 by done. split; [|split; [done|intros [= <-]; by apply Npk]]. split; [done|]. intros r R1 R2. destruct (O2 r R1 R2) as [Z|Z]; [by left|right].
    destruct (decide (r `prefix_of` key_nibbles k)) as [X|X]; [|by rewrite U_delete_other in Z]. destruct (Cmp r X) as [Y|Y].
    + rewrite U_delete in Z. etrans; [exact Z|]. apply size_le. apply delete_subseteq.
    + specialize (Small r Y). rewrite U_delete in Z. pose proof (size_le _ _ (delete_subseteq (U r S) k)). lia.
Qed.

(** a restore recreated from the store after an accepted chunk *)
Lemma restore_new_ok rs X Y k root : live H v True rs X k -> rs_fnodes rs = ∅ -> vals v rs ∅ Y -> exists rs' q n,
  restore_new H (rs_store rs) v root = Ok rs' /\ idle H v True rs' (delete k X) q /\ vals v rs' ∅ Y /\ rs_root rs' = root /\ rs_store rs' = rs_store rs /\
  (q ++ [n]) `prefix_of` key_nibbles k /\ U (q ++ [n]) (H <$> delete k X) = ∅.
Proof.
  intros [(q & c & I & (h & Eu) & T) (xk & Ek & Pv) M Num] Ef [V1 V2]. set (s := rs_store rs).
  assert (Pk : (q ++ [c]) `prefix_of` key_nibbles k) by (assert (E : U (q ++ [c]) (H <$> X) !! k = Some h) by (rewrite Eu; apply lookup_singleton); by apply U_lookup in E as [_ ?]).
  assert (N : forall w p nd, st_nodes s !! (w, p) = Some nd <-> w = v /\ fr (H <$> delete k X) q None p /\ nd = node_at H (H <$> delete k X) vv p).
  { intros w p nd. pose proof (ri_nodes I Logic.I w p nd) as R. unfold all_nodes in R. rewrite Ef, (left_id_L ∅ (∪)) in R. unfold s. rewrite R, fmap_delete, <- (fr_delete _ _ _ _ _ _ Eu).
    assert (Npk : fr (H <$> X) q (Some (q ++ [c])) p -> ~ p `prefix_of` key_nibbles k).
    { intros E2 Z. apply (fr_delete _ _ _ _ _ _ Eu) in E2 as ((O1 & O2) & O3 & _). destruct (prefix_weak_total p (q ++ [c]) _ Z Pk) as [Y1|Y1].
      - destruct (pre_cmp p q (q ++ [c]) c Y1) as [Y2|Y2]; [done|done|]. apply O1. apply (U_app_none (q ++ [c])); [done|]. by rewrite U_delete, Eu, delete_singleton.
      - apply O1. apply (U_app_none (q ++ [c])); [done|]. by rewrite U_delete, Eu, delete_singleton. }
    split; intros (E1 & E2 & E3); (split; [done|]; split; [done|]); rewrite E3; apply node_at_ext; [|done| |done]; [symmetry|]; by apply U_delete_other, Npk. }
  assert (Rm : rmost (H <$> delete k X) q).
  { intros j a n Ea La. rewrite fmap_delete, U_delete, (ri_rmost I j a n Ea La). apply delete_empty. }
  assert (Un : U (q ++ [c]) (H <$> delete k X) = ∅) by (by rewrite fmap_delete, U_delete, Eu, delete_singleton).
  assert (Vn : forall ps prev, vals v (RS s v ps ∅ ∅ prev 0 root) ∅ Y). { intros ps prev. split; [cbn; unfold fvals; by rewrite fmap_empty, kmap_empty|exact V2]. }
  assert (Ri : forall ps prev, chain_ok H v (H <$> delete k X) q ps -> RI H v True (RS s v ps ∅ ∅ prev 0 root) (H <$> delete k X) q None).
  { intros ps prev C. split; [done|apply (ri_len I)|done|done|intros _; apply map_disjoint_empty_l|]. intros _ w p nd. unfold all_nodes. cbn [rs_fnodes rs_store]. rewrite (left_id_L ∅ (∪)). apply N. }
  unfold restore_new. pose proof (store_rightmost_ok s) as R. destruct (store_rightmost s) as [[nk l]|].
  - destruct R as [El Ml]. destruct nk as [w pl]. pose proof El as El'. apply N in El as (-> & Fl & En).
    assert (Ul : exists hl, U pl (H <$> delete k X) = {[ ln_key l := hl ]}).
    { destruct (size_cases (U pl (H <$> delete k X))) as [E|[(k' & h' & E)|E]]; [by destruct Fl as ((? & _) & _)| |].
      - rewrite (node_at_leaf H _ _ _ k' h') in En by done. injection En as ->. by exists h'.
      - rewrite node_at_internal in En by done. done. }
    destruct Ul as [hl Ul]. assert (Xl : U pl (H <$> delete k X) !! ln_key l = Some hl) by (rewrite Ul; apply lookup_singleton). apply U_lookup in Xl as [Xl Ppl].
    rewrite lookup_fmap in Xl. destruct (delete k X !! ln_key l) as [xl|] eqn:Dl; [|done].
    assert (Mx : forall k' x', delete k X !! k' = Some x' -> key_le k' (ln_key l)).
    { intros k' x' E. destruct (leaf_exists (H <$> delete k X) q k' (H x') (ri_len I)) as (p' & F' & U'); [rewrite lookup_fmap, E; done|].
      assert (X' : st_nodes s !! (v, p') = Some (node_at H (H <$> delete k X) vv p')) by (by apply N). rewrite (node_at_leaf H _ _ _ k' (H x')) in X' by done. by apply Ml in X'. }
    assert (Pq : q `prefix_of` key_nibbles (ln_key l) /\ (q <> [] -> U q (H <$> delete k X) <> ∅)).
    { destruct (decide (q = [])) as [->|Nq]; [split; [apply prefix_nil|done]|]. specialize (T Nq).
      assert (Nu : U q (H <$> delete k X) <> ∅). { rewrite fmap_delete, U_delete. intros E. assert (L : size (delete k (U q (H <$> X))) = 0) by (by rewrite E, map_size_empty).
        rewrite map_size_delete in L. destruct (U q (H <$> X) !! k); cbn in L; lia. }
      split; [|done]. apply map_choose in Nu as (y & hy & Ey). apply U_lookup in Ey as [Ey Py]. rewrite lookup_fmap in Ey. destruct (delete k X !! y) as [xy|] eqn:Dy; [|done].
      apply (between_prefix q y (ln_key l) k); [done|by eapply prefix_snoc_l|by eapply Mx|]. apply lookup_delete_Some in Dl as [_ Dl]. by eapply M. }
    destruct Pq as [Pq Nq]. pose proof Fl as (_ & Npl & _). destruct (prefix_weak_total q pl _ Pq Ppl) as [Qp|Qp]; [|done]. clear Ppl Pq.
    destruct (decide (pl = [])) as [->|Nn]; [destruct Npl; apply prefix_nil|].
    destruct (exists_last Nn) as (pl' & a & ->). 
    assert (Qp' : q `prefix_of` pl'). { destruct (pre_cmp q pl' (pl' ++ [a]) a Qp) as [Z|Z]; [done|done|]. exfalso. by apply Npl. }
    unfold recover_partial_nodes. cbn [fst snd]. rewrite bool_decide_false by done. cbn [negb ensure_]. rewrite bind_Ok, rev_app_distr. cbn [rev app].
    destruct Qp' as [ext ->]. rewrite (recover_up_ok s _ q N ext _ Fl) by (try apply prefix_app_r; try done; intros E; apply (f_equal length) in E; rewrite !app_length in E; cbn in E; lia).
    rewrite bind_Ok. destruct (recover_loop_ok s _ q N Rm (length q) ltac:(lia)) as (ps & Ep & Lp & Kp). rewrite firstn_all in Ep. rewrite lookup_ge_None_2 in Ep by lia. rewrite Ep, bind_Ok.
    eexists. exists q, c. split; [done|]. split; [|done]. split; [apply Ri; split; [lia|done]|]. split; [done|]. split; [done|]. cbn [rs_prev]. split; [by eexists|done].
  - assert (Ex : delete k X = ∅). { apply map_empty. intros k'. destruct (delete k X !! k') as [x'|] eqn:E; [|done]. exfalso.
      destruct (leaf_exists (H <$> delete k X) q k' (H x') (ri_len I)) as (p' & F' & U'); [rewrite lookup_fmap, E; done|].
      assert (X' : st_nodes s !! (v, p') = Some (node_at H (H <$> delete k X) vv p')) by (by apply N). rewrite (node_at_leaf H _ _ _ k' (H x')) in X' by done. by apply R in X'. }
    assert (Eq : q = []). { destruct (decide (q = [])) as [|Nq]; [done|]. specialize (T Nq). exfalso.
      assert (L : size (U q (H <$> delete k X)) = 0) by (by rewrite Ex, fmap_empty, U_none, map_size_empty).
      rewrite fmap_delete, U_delete, map_size_delete in L. destruct (U q (H <$> X) !! k); cbn in L; lia. }
    subst q. eexists. exists [], c. split; [done|]. split; [|done]. split; [apply Ri|split; [done|split; [done|done]]].
    split; [done|]. intros j i Ei. apply list_lookup_singleton_Some in Ei as [-> <-]. split; [done|]. intros n. cbn [ii_empty ii_children take app]. rewrite lookup_empty, decide_False by done.
    symmetry. apply cinfo_is_none. by rewrite Ex, fmap_empty, U_none.
Qed.
End facts.
