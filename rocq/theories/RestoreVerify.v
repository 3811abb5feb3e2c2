(** The verification step of the restore process (Restore.v). *)
From Coq Require Import Strings.String.
From Verif Require Import Base Spec SpecRange NodeType ProofDef TreeCache Mock Restore KeyFacts SmtFacts ProofFacts NodeFacts Canon CanonSib PutFacts KeyOrder OrderFacts ThmNode ValueFacts ThmProof RangeFacts ThmRange RestoreFacts RestoreFacts2.
From Coq Require Import Lia.
Local Opaque Spec.smt.

Lemma region_nibs r h : length r + h = 4 -> map (fun j => nib_of_N (pstart r + N.of_nat j)) (seq 0 (2 ^ h)) = nibs r.
Proof. intros L. enum_bits r; simpl in L; try lia; (destruct h as [|[|[|[|[|h]]]]]; try lia); reflexivity. Qed.

Section facts.
Context (H : list byte -> bytes32) (v : version).
Implicit Types (M : gmap key vhash).
Notation PH := SPARSE_MERKLE_PLACEHOLDER_HASH.

(** no input of the tree hashes to the placeholder *)
Definition nb M : Prop := forall x, x ∈ ms_in H [] M -> H x <> PH.
Lemma nb_dec M : nb M \/ exists x, x ∈ ms_in H [] M /\ H x = PH.
Proof.
  destruct (decide (Exists (fun x => H x = PH) (ms_in H [] M))) as [E|E].
  - right. by apply Exists_exists in E.
  - left. intros x Hx Eq. apply E, Exists_exists. eauto.
Qed.
Lemma ms_in_up M r : length r <= 256 -> forall x, x ∈ ms_in H r M -> x ∈ ms_in H [] M.
Proof.
  induction r as [|b r IH] using rev_ind; intros L x Hx; [done|]. rewrite app_length in L. cbn [length] in L. apply IH; [lia|].
  destruct (size_cases (under r M)) as [E|[(k & h & E)|E]].
  - exfalso. assert (E' : under (r ++ [b]) M = ∅). { apply map_empty. intros k. destruct (under (r ++ [b]) M !! k) as [y|] eqn:Ek; [|done].
      apply (lookup_weaken _ (under r M)) in Ek; [|apply under_app_sub]. by rewrite E in Ek. }
    unfold ms_in in Hx. rewrite E', map_to_list_empty in Hx. destruct (256 - length (r ++ [b])); by apply elem_of_nil in Hx.
  - destruct (decide (under (r ++ [b]) M = ∅)) as [E'|E'].
    + unfold ms_in in Hx. rewrite E', map_to_list_empty in Hx. destruct (256 - length (r ++ [b])); by apply elem_of_nil in Hx.
    + rewrite (ms_in_single H (r ++ [b]) M k h) in Hx by (by rewrite (ms_sub_single _ _ _ _ _ E' E)). by rewrite (ms_in_single H r M k h).
  - by eapply ms_in_half.
Qed.
Lemma nb_ms M r : nb M -> under r M <> ∅ -> ms H r M <> PH.
Proof.
  intros NB Ne. assert (L : length r <= 256).
  { apply map_choose in Ne as (k & h & [_ E]%under_lookup). by eapply haspre_len. }
  destruct (size_cases (under r M)) as [E|[(k & h & E)|E]]; [done| |].
  - rewrite (ms_single _ _ _ _ _ E). apply NB. apply (ms_in_up M r L). rewrite (ms_in_single _ _ _ _ _ E). apply elem_of_list_here.
  - rewrite (ms_many _ _ _ E). apply NB. apply (ms_in_up M r L). by apply ms_in_internal.
Qed.
Lemma nb_iff M r : nb M -> ms H r M = PH <-> under r M = ∅.
Proof. intros NB. split; [|apply ms_empty]. intros E. destruct (decide (under r M = ∅)); [done|]. by apply nb_ms in E. Qed.

(** compute_left_sibling on a range of nibbles *)
Lemma left_impl_ok M p (f : nibble -> option child_info) : length p < 64 -> forall h r, length r + h = 4 ->
  (forall s, under ((bits p ++ r) ++ s) M <> ∅ -> ms H ((bits p ++ r) ++ s) M <> PH) ->
  (forall n, n ∈ nibs r -> f n = cinfo H M (p ++ [n])) ->
  left_sibling_impl H h (map f (nibs r)) = Ok (ms H (bits p ++ r) M, bool_decide (size (under (bits p ++ r) M) <= 1)).
Proof.
  intros Lp. induction h as [|h IH]; intros r Lr NB F.
  - destruct (nibs_4' r) as [n ->]; [lia|]. rewrite nibs_4 in *. cbn [map]. rewrite (F n) by (apply elem_of_list_here). rewrite <- bits_snoc.
    destruct (size_cases (U (p ++ [n]) M)) as [E|[(k & x & E)|E]].
    + rewrite cinfo_none by done. cbn [left_sibling_impl]. unfold U in E. rewrite (ms_empty _ _ _ E), E, map_size_empty, bool_decide_true; [done|lia].
    + rewrite (cinfo_leaf _ _ _ _ _ E). cbn [left_sibling_impl]. unfold U in E. rewrite (ms_single _ _ _ _ _ E), E, map_size_singleton, bool_decide_true by lia. done.
    + rewrite cinfo_many by done. cbn [left_sibling_impl unwrap]. rewrite bind_Ok. unfold U in E. rewrite bool_decide_false by lia. done.
  - cbn [left_sibling_impl]. destruct (nibs_halves r h Lr) as [E1 E2]. rewrite <- fmap_take, <- fmap_drop, E1, E2.
    change (f <$> ?l) with (map f l). 
    rewrite (IH (r ++ [false])), (IH (r ++ [true])); [|rewrite app_length; cbn; lia| | |rewrite app_length; cbn; lia| |].
    2:{ intros s. rewrite app_assoc, <- app_assoc. apply (NB ([true] ++ s)). }
    3:{ intros s. rewrite app_assoc, <- app_assoc. apply (NB ([false] ++ s)). }
    2:{ intros n Hn. apply F. rewrite (nibs_app r h Lr). apply elem_of_app. by right. }
    2:{ intros n Hn. apply F. rewrite (nibs_app r h Lr). apply elem_of_app. by left. }
    rewrite !bind_Ok. cbv beta iota. rewrite !app_assoc. set (R := bits p ++ r) in *.
    assert (LR : length R < 256) by (unfold R; rewrite app_length, bits_length; lia).
    pose proof (size_halves R M LR) as Sz.
    f_equal.
    assert (Z : forall b, bool_decide (ms H (R ++ [b]) M = PH) = bool_decide (size (under (R ++ [b]) M) = 0)).
    { intros b. apply bool_decide_ext. rewrite map_size_empty_iff. split; [|apply ms_empty]. intros Eph.
      destruct (decide (under (R ++ [b]) M = ∅)) as [|Ne]; [done|]. by apply (NB [b]) in Ne. }
    rewrite !Z.
    destruct (size_cases (under R M)) as [E|[(k & x & E)|E]].
    + rewrite E, map_size_empty in Sz. rewrite (bool_decide_true (size (under (R ++ [false]) M) = 0)), (bool_decide_true (size (under (R ++ [true]) M) <= 1)) by lia.
      cbn [andb]. rewrite (ms_empty H R), (ms_empty H (R ++ [true])), E, map_size_empty by (try done; apply map_size_empty_iff; lia). done.
    + rewrite E, map_size_singleton in Sz. rewrite (ms_single _ _ _ _ _ E), E, map_size_singleton.
      destruct (decide (size (under (R ++ [false]) M) = 0)) as [Z0|Z0].
      * rewrite (bool_decide_true (size (under (R ++ [false]) M) = 0)), (bool_decide_true (size (under (R ++ [true]) M) <= 1)) by lia. cbn [andb].
        rewrite (ms_single H (R ++ [true]) M k x); [done|]. assert (N : under (R ++ [true]) M <> ∅) by (apply size_ne; lia). by rewrite (ms_sub_single _ _ _ _ _ N E).
      * rewrite (bool_decide_false (size (under (R ++ [false]) M) = 0)) by lia. cbn [andb].
        rewrite (bool_decide_true (size (under (R ++ [false]) M) <= 1)), (bool_decide_true (size (under (R ++ [true]) M) = 0)) by lia. cbn [andb].
        rewrite (ms_single H (R ++ [false]) M k x); [done|]. assert (N : under (R ++ [false]) M <> ∅) by (apply size_ne; lia). by rewrite (ms_sub_single _ _ _ _ _ N E).
    + rewrite (ms_many _ _ _ E), (bool_decide_false (size (under R M) <= 1)) by lia.
      replace (bool_decide (size (under (R ++ [false]) M) = 0) && bool_decide (size (under (R ++ [true]) M) <= 1)) with false.
      2:{ symmetry. apply andb_false_iff. destruct (decide (size (under (R ++ [false]) M) = 0)); [right|left]; apply bool_decide_eq_false; lia. }
      replace (bool_decide (size (under (R ++ [false]) M) <= 1) && bool_decide (size (under (R ++ [true]) M) = 0)) with false.
      2:{ symmetry. apply andb_false_iff. destruct (decide (size (under (R ++ [true]) M) = 0)); [left|right]; apply bool_decide_eq_false; lia. }
      done.
Qed.
(** no input of the subtrees to the left of [k] hashes to the placeholder *)
Definition nbl M k : Prop := forall i s, i < 256 -> bit_at k i = true -> under ((kpre i k ++ [false]) ++ s) M <> ∅ -> ms H ((kpre i k ++ [false]) ++ s) M <> PH.
Lemma nb_nbl M k : nb M -> nbl M k.
Proof. intros NB i s _ _. by apply nb_ms. Qed.
(** all the left siblings, deepest first *)
Lemma left_siblings_ok g rs M q c k h : RI H v g rs M q (Some (q ++ [c])) -> U (q ++ [c]) M = {[ k := h ]} -> nbl M k -> forall l acc,
  (forall i, i ∈ l -> i < 256) ->
  left_siblings H (rs_partial rs) k (map (fun i => (i, bit_at k i)) l) acc = Ok (rev (map (lsib H M k) (filter (fun i => bit_at k i = true) l)) ++ acc).
Proof.
  intros I Eu NB. destruct (ri_chain I) as [Lp Ch]. pose proof (ri_len I) as Lq.
  assert (Ek : U (q ++ [c]) M !! k = Some h) by (rewrite Eu; apply lookup_singleton). apply U_lookup in Ek as [Ek Pk].
  induction l as [|i l IH]; intros acc Hl; [done|]. cbn [map left_siblings]. rewrite filter_cons.
  assert (Hi : i < 256) by (apply Hl; apply elem_of_list_here). assert (Hl' : forall i, i ∈ l -> i < 256) by (intros i' Hi'; apply Hl; by apply elem_of_list_further).
  destruct (bit_at k i) eqn:Eb; [|rewrite decide_False by done; by apply IH]. rewrite decide_True by done. cbn [map rev]. rewrite <- app_assoc. cbn [app].
  rewrite Lp. destruct (Nat.leb_spec (Datatypes.S (length q) * 4) i) as [Li|Li].
  - rewrite bind_Ok, IH by done. do 3 f_equal. unfold lsib, hsib. rewrite smt_node_hash. symmetry. apply ms_empty. rewrite Eb. cbn [negb].
    apply map_empty. intros x. destruct (under (kpre i k ++ [false]) M !! x) as [y|] eqn:Ex; [|done]. exfalso.
    apply under_lookup in Ex as [Ex P]. apply haspre_snoc in P as [P1 P2]; [|rewrite kpre_length; lia]. rewrite kpre_length in P2 by lia.
    assert (X : U (q ++ [c]) M !! x = Some y).
    { unfold U. apply under_lookup. split; [done|]. rewrite <- (kpre_bits _ _ Pk), app_length. cbn [length]. apply haspre_kpre; [lia|]. apply haspre_kpre in P1; [|lia].
      eapply kpre_le; [|exact P1]. lia. }
    rewrite Eu in X. apply lookup_singleton_Some in X as [<- <-]. congruence.
  - set (j := i / 4). pose proof (Nat.div_mod i 4 ltac:(lia)) as Dm. pose proof (Nat.mod_upper_bound i 4 ltac:(lia)) as Mb. fold j in Dm.
    assert (Lj : j <= length q) by lia. destruct (lookup_lt_is_Some_2 (rs_partial rs) j ltac:(lia)) as [ii Ei]. rewrite Ei. cbn [unwrap]. rewrite bind_Ok.
    rewrite get_nibble_lookup. destruct (lookup_lt_is_Some_2 (key_nibbles k) j) as [n En]; [rewrite key_nibbles_length; lia|]. rewrite En. cbn [unwrap]. rewrite bind_Ok.
    unfold compute_left_sibling. replace (3 - i mod 4 <? 4) with true by (symmetry; apply Nat.ltb_lt; lia). cbn [assert_]. rewrite bind_Ok.
    rewrite sibling_half_start_spec by lia. replace (3 - (3 - i mod 4)) with (i mod 4) by lia.
    assert (Pq : q `prefix_of` key_nibbles k) by (by eapply prefix_snoc_l).
    assert (Tq : take j q = take j (key_nibbles k)). { destruct Pq as [z ->]. by rewrite take_app_le by lia. }
    assert (Pn : (take j q ++ [n]) `prefix_of` key_nibbles k) by (rewrite Tq; by apply take_snoc_pre).
    assert (Lt : length (take j q) = j) by (rewrite take_length; lia).
    assert (B : nth (i mod 4) (nib_bits n) false = true). { rewrite <- (bit_at_bits _ _ _ _ Pn Mb), Lt, <- Dm. done. }
    rewrite B. cbn [negb]. set (r := take (i mod 4) (nib_bits n) ++ [false]).
    assert (Lr : length r + (3 - i mod 4) = 4) by (unfold r; rewrite app_length, take_length, nib_bits_length; cbn [length]; lia).
    rewrite <- (map_map (fun j => nib_of_N (pstart r + N.of_nat j)) (fun n => ii_children ii !! n)), region_nibs by done.
    destruct (Ch _ _ Ei) as [_ C].
    assert (Er : bits (take j q) ++ r = kpre i k ++ [false]).
    { unfold r. rewrite app_assoc. f_equal. rewrite <- (kpre_bits_take _ _ _ _ Pn) by lia. rewrite Lt. f_equal. lia. }
    rewrite (left_impl_ok M (take j q)); [|lia|done|intros s; rewrite Er; by apply NB|].
    2:{ intros m Hm. rewrite C, decide_False; [done|]. intros Eq. assert (m = n) as ->.
        { destruct Pq as [z Z]. rewrite Z, lookup_app_l in En by (apply lookup_lt_Some in Eq; lia). congruence. }
        apply elem_of_nibs in Hm. unfold r in Hm. rewrite app_length, take_length, nib_bits_length in Hm. cbn [length] in Hm.
        replace ((i mod 4) `min` 4 + 1) with (Datatypes.S (i mod 4)) in Hm by lia.
        assert (Eb' : nib_bits n !! (i mod 4) = Some true). { destruct (lookup_lt_is_Some_2 (nib_bits n) (i mod 4)) as [b Ebb]; [rewrite nib_bits_length; lia|].
          rewrite Ebb. f_equal. rewrite <- B. symmetry. by apply nth_lookup_Some. }
        rewrite (take_S_r _ _ _ Eb') in Hm. by apply app_inj_tail in Hm as [_ Hm]. }
    rewrite bind_Ok. cbn [fst]. rewrite bind_Ok, IH by done. do 3 f_equal. unfold lsib, hsib. rewrite smt_node_hash, Eb. cbn [negb]. by rewrite Er.
Qed.

Lemma kpre_zeros k d : d <= 256 -> length (filter (fun b => b = false) (kpre d k)) = length (turns false k d).
Proof.
  induction d as [|d IH]; intros L; [done|]. rewrite kpre_S, filter_app, app_length, IH, turns_S by lia. rewrite filter_cons, filter_nil.
  destruct (bit_at k d).
  - rewrite !decide_False by done. cbn. lia.
  - rewrite !decide_True by done. cbn. lia.
Qed.
Lemma trim_any (f : nat -> hash) k right d : d <= 256 ->
  exists d', d' <= d /\ trim (rev (kpre d k)) (map f (turns true k d)) (length (turns false k d)) right = Ok (map f (turns true k d')) /\
    forall i, i < d -> bit_at k i = true -> d' <= i -> f i = PH.
Proof.
  induction d as [|d IH]; intros L.
  - exists 0. split; [done|]. split; [done|]. intros i Hi. lia.
  - rewrite kpre_S, rev_app_distr by lia. cbn [rev app]. rewrite !turns_S. destruct (IH ltac:(lia)) as (d' & Ld & Et & Hp).
    destruct (bit_at k d) eqn:Eb.
    + rewrite decide_True, decide_False by done. cbn [map trim]. destruct (decide (f d = PH)) as [Ef|Nf].
      * exists d'. split; [lia|]. split; [done|]. intros i Hi B Li. destruct (decide (i = d)) as [->|]; [done|]. apply Hp; [lia|done|done].
      * exists (Datatypes.S d). split; [done|]. rewrite turns_S, decide_True by done. split; [done|]. intros i Hi _ Li. lia.
    + rewrite decide_False, decide_True by done. cbn [length trim]. destruct (Nat.ltb_spec right (Datatypes.S (length (turns false k d)))) as [Lr|Lr].
      * replace (Datatypes.S (length (turns false k d)) - 1) with (length (turns false k d)) by lia. exists d'. split; [lia|]. split; [done|].
        intros i Hi B Li. destruct (decide (i = d)) as [->|]; [congruence|]. apply Hp; [lia|done|done].
      * exists (Datatypes.S d). split; [done|]. rewrite turns_S, decide_False by congruence. split; [done|]. intros i Hi _ Li. lia.
Qed.
Lemma turns_mono b k n d : n <= d -> length (turns b k n) <= length (turns b k d).
Proof. induction 1 as [|d L IH]; [done|]. rewrite turns_S. case_decide; cbn; lia. Qed.
Lemma trim_exact (f : nat -> hash) k n d : d <= 256 -> n <= d -> (forall i, i < 256 -> n <= i -> bit_at k i = true -> f i = PH) ->
  (forall i, n = Datatypes.S i -> bit_at k i = true -> f i <> PH) ->
  trim (rev (kpre d k)) (map f (turns true k d)) (length (turns false k d)) (length (turns false k n)) = Ok (map f (turns true k n)).
Proof.
  intros L Ln E1 E2. induction Ln as [|d Ln IH].
  - destruct n as [|i]; [done|]. specialize (E2 i eq_refl). rewrite kpre_S, rev_app_distr by lia. cbn [rev app]. rewrite !turns_S. destruct (bit_at k i) eqn:Eb.
    + rewrite decide_True, decide_False by done. cbn [map trim]. rewrite decide_False by (by apply E2). done.
    + rewrite decide_False, decide_True by done. cbn [length trim]. rewrite Nat.ltb_irrefl. done.
  - rewrite kpre_S, rev_app_distr by lia. cbn [rev app]. rewrite !(turns_S _ _ d). destruct (bit_at k d) eqn:Eb.
    + rewrite decide_True, decide_False by done. cbn [map trim]. rewrite decide_True by (apply E1; [lia|lia|done]). apply IH. lia.
    + rewrite decide_False, decide_True by done. cbn [length trim]. pose proof (turns_mono false k n d Ln).
      replace (length (turns false k n) <? Datatypes.S (length (turns false k d))) with true by (symmetry; apply Nat.ltb_lt; lia).
      replace (Datatypes.S (length (turns false k d)) - 1) with (length (turns false k d)) by lia. apply IH. lia.
Qed.
Lemma zip_bits k : zip (seq 0 256) (key_bits k) = map (fun i => (i, bit_at k i)) (seq 0 256).
Proof.
  apply list_eq. intros i. change (map ?f ?l) with (f <$> l). rewrite list_lookup_fmap. destruct (decide (i < 256)) as [Li|Li].
  - rewrite lookup_zip_with, !lookup_seq_lt, bit_at_lookup by done. done.
  - rewrite !lookup_ge_None_2; [done|rewrite seq_length; lia|]. rewrite zip_with_length, seq_length. lia.
Qed.
(** what verify does on a live state *)
Lemma rverify_eq ovf g rs X k x p : live H v g rs X k -> X !! k = Some x -> nbl (H <$> X) k ->
  rverify H ovf rs p = (_ ← ensure_ (length (right_siblings p) <=? length (turns false k 256)) "Too many right siblings in the proof.";
    ls ← trim (rev (kpre 256 k)) (map (lsib H (H <$> X) k) (turns true k 256)) (length (turns false k 256)) (length (right_siblings p));
    range_verify H ovf p (rs_root rs) (LeafNode k (H x)) ls).
Proof.
  intros [(q & c & I & (h & Eu) & _) (x' & Ex & Ep) _ _] Ex' NB. rewrite Ex' in Ex. injection Ex as <-. unfold rverify. rewrite Ep. cbn [unwrap]. rewrite bind_Ok. cbn [ln_key].
  rewrite zip_bits, (left_siblings_ok g rs (H <$> X) q c k h I Eu NB) by (intros i Hi; apply elem_of_seq in Hi; lia). rewrite bind_Ok, app_nil_r.
  assert (E : kpre 256 k = key_bits k) by (unfold kpre; rewrite take_ge; [done|rewrite key_bits_length; lia]).
  rewrite <- E, kpre_zeros by done.
  replace (rev (map (lsib H (H <$> X) k) (filter (fun i => bit_at k i = true) (seq 0 256)))) with (map (lsib H (H <$> X) k) (turns true k 256)) by (unfold turns; by rewrite map_rev).
  done.
Qed.
Lemma term_beside M k n i : term M k n -> n <= i -> i < 256 -> M !! k <> None -> under (kpre i k ++ [negb (bit_at k i)]) M = ∅.
Proof.
  intros T Ln Li Ne. destruct (term_cases _ _ _ T) as [(E & _ & _)|(k' & h & E & _ & C2 & _ & C4)].
  - apply map_empty. intros y. destruct (under (kpre i k ++ [negb (bit_at k i)]) M !! y) as [z|] eqn:Ey; [|done]. exfalso.
    apply (lookup_weaken _ (under (kpre i k) M)) in Ey; [|apply under_app_sub]. apply (lookup_weaken _ (under (kpre n k) M)) in Ey; [|by apply under_kpre_le]. by rewrite E in Ey.
  - destruct (decide (k' = k)) as [->|N].
    + apply map_empty. intros y. destruct (under (kpre i k ++ [negb (bit_at k i)]) M !! y) as [z|] eqn:Ey; [|done]. exfalso. pose proof Ey as Ey'.
      apply (lookup_weaken _ (under (kpre i k) M)) in Ey; [|apply under_app_sub]. apply (lookup_weaken _ (under (kpre n k) M)) in Ey; [|by apply under_kpre_le].
      rewrite E in Ey. apply lookup_singleton_Some in Ey as [<- <-]. apply under_lookup in Ey' as [_ P]. apply haspre_snoc in P as [_ P]; [|rewrite kpre_length; lia].
      rewrite kpre_length in P by lia. destruct (bit_at k i); done.
    + exfalso. by apply Ne, C4.
Qed.
(** agreement below [k] *)
Definition upto (m X : gmap key value) k : Prop := forall k', X !! k' = if decide (key_le k' k) then m !! k' else None.
Lemma upto_left m X k i s : upto m X k -> i < 256 -> bit_at k i = true ->
  under ((kpre i k ++ [false]) ++ s) (H <$> X) = under ((kpre i k ++ [false]) ++ s) (H <$> m).
Proof.
  intros Up Li B. apply under_eq_app. apply map_eq. intros y. apply option_eq. intros z. rewrite !under_lookup, !lookup_fmap. split; intros [E P].
  - split; [|done]. rewrite Up in E. case_decide; done.
  - split; [|done]. rewrite Up, decide_True; [done|]. right. apply haspre_snoc in P as [P1 P2]; [|rewrite kpre_length; lia]. rewrite kpre_length in P2 by lia.
    apply (key_lt_bit y k i); [done| |done|done]. apply haspre_kpre in P1; [done|lia].
Qed.
Lemma range_complete ovf (m : gmap key value) k x n p : m !! k = Some x -> term (H <$> m) k n ->
  right_siblings p = map (hsib H (H <$> m) k) (turns false k n) ->
  range_verify H ovf p (smt_root H m) (LeafNode k (H x)) (map (lsib H (H <$> m) k) (turns true k n)) = Ok tt.
Proof.
  intros E T Er. pose proof T as (Hn & _). unfold range_verify. cbn [ln_key]. rewrite Er, !map_length, turns_length by done. rewrite usub_ok by lia.
  rewrite bind_Ok, rev_bits_skip_rev, loop_complete, bind_Ok by done.
  rewrite bool_decide_true; [done|]. rewrite <- ms_nil, <- (term_climb H _ _ _ T). f_equal.
  destruct (term_cases _ _ _ T) as [(_ & _ & C)|(k' & h & _ & -> & C2 & C3 & C4)]; [by rewrite lookup_fmap, E in C|].
  destruct (decide (k' = k)) as [->|Ne]; [|specialize (C4 Ne); by rewrite lookup_fmap, E in C4].
  rewrite lookup_fmap, E in C2. injection C2 as <-. done.
Qed.
Lemma rverify_complete ovf g rs X k m n p : live H v g rs X k -> upto m X k -> rs_root rs = smt_root H m -> nb (H <$> m) -> term (H <$> m) k n ->
  right_siblings p = map (hsib H (H <$> m) k) (turns false k n) -> rverify H ovf rs p = Ok tt.
Proof.
  intros L Up Er NB T Ep. destruct (lv_prev _ _ _ _ _ _ L) as (x & Ex & _). pose proof T as (Hn & _ & Tm).
  assert (Em : m !! k = Some x) by (rewrite Up, decide_True in Ex by (by left); done).
  assert (Mk : (H <$> m) !! k <> None) by (by rewrite lookup_fmap, Em).
  assert (NBX : nbl (H <$> X) k). { intros i s Li B. rewrite (upto_left m X k i s Up Li B). rewrite (ms_under H _ _ _ (upto_left m X k i s Up Li B)). by apply nb_ms. }
  rewrite (rverify_eq ovf g rs X k x p L Ex NBX), Er.
  assert (Ls : forall i, i < 256 -> bit_at k i = true -> lsib H (H <$> X) k i = lsib H (H <$> m) k i).
  { intros i Li B. unfold lsib, hsib. rewrite !smt_node_hash, B. cbn [negb]. apply ms_under. pose proof (upto_left m X k i [] Up Li B) as E. by rewrite !app_nil_r in E. }
  assert (Em' : forall d, d <= 256 -> map (lsib H (H <$> X) k) (turns true k d) = map (lsib H (H <$> m) k) (turns true k d)).
  { intros d Ld. apply map_ext_in. intros i Hi%elem_of_list_In. apply turns_lt in Hi as [? ?]. apply Ls; [lia|done]. }
  rewrite Em' by done. rewrite Ep, map_length.
  replace (length (turns false k n) <=? length (turns false k 256)) with true by (symmetry; apply Nat.leb_le; by apply turns_mono). cbn [ensure_]. rewrite bind_Ok.
  rewrite trim_exact; [|done|done| |].
  - rewrite bind_Ok. by apply range_complete.
  - intros i Li Ln B. unfold lsib, hsib. rewrite smt_node_hash. apply ms_empty. by eapply term_beside.
  - intros i -> B. unfold lsib, hsib. rewrite smt_node_hash. apply nb_ms; [done|]. rewrite B. cbn [negb]. intros E0.
    specialize (Tm i ltac:(lia)). destruct T as (_ & T1 & _). rewrite kpre_S, B in T1 by lia.
    pose proof (under_half_empty (kpre i k) false (H <$> m) ltac:(rewrite kpre_length; lia) E0) as X0. cbn [negb] in X0. rewrite X0 in T1. lia.
Qed.

Lemma turns_app b k n d : n <= d -> exists l, turns b k d = l ++ turns b k n.
Proof. induction 1 as [|d L [l IH]]; [by exists []|]. rewrite turns_S, IH. case_decide; [by exists (d :: l)|by exists l]. Qed.
Lemma turns_eq b k n d : length (turns b k n) = length (turns b k d) -> turns b k n = turns b k d.
Proof.
  intros E. assert (G : forall n d, n <= d -> length (turns b k n) = length (turns b k d) -> turns b k n = turns b k d).
  { intros n' d' L E'. destruct (turns_app b k n' d' L) as [l El]. rewrite El, app_length in E'. destruct l; [done|cbn in E'; lia]. }
  destruct (Nat.le_ge_cases n d); [by apply G|]. symmetry. by apply G.
Qed.
Lemma elem_of_turns b k n i : i ∈ turns b k n <-> i < n /\ bit_at k i = b.
Proof. split; [apply turns_lt|]. intros [L B]. unfold turns. rewrite elem_of_list_In, <- in_rev, <- elem_of_list_In, elem_of_list_filter, elem_of_seq. split; [done|lia]. Qed.
Lemma all_or {A} (P : A -> Prop) (B : Prop) (l : list A) : (forall a, a ∈ l -> P a \/ B) -> (forall a, a ∈ l -> P a) \/ B.
Proof.
  induction l as [|a l IH]; intros Q; [left; intros a Ha; by apply elem_of_nil in Ha|].
  destruct (Q a (elem_of_list_here _ _)) as [Pa|]; [|by right]. destruct IH as [Pl|]; [intros b Hb; apply Q; by apply elem_of_list_further| |by right].
  left. intros b Hb. apply elem_of_cons in Hb as [->|Hb]; [done|by apply Pl].
Qed.
Lemma rverify_sound ovf g rs X k m p : live H v g rs X k -> rs_root rs = smt_root H m -> rverify H ovf rs p = Ok tt ->
  upto m X k \/ exists x d, d <= 256 /\ X !! k = Some x /\ hash_broken H (root_inputs H m ++ root_inputs H X ++ range_inputs H (LeafNode k (H x)) (left_hashes H X k d) p).
Proof.
  intros L Er Ev. destruct (lv_prev _ _ _ _ _ _ L) as (x & Ex & _).
  destruct (nb_dec (H <$> X)) as [NB|(z & Hz & Ez)].
  2:{ right. exists x, 0. split; [lia|]. split; [done|]. right. exists z. split; [|done]. apply elem_of_app. right. apply elem_of_app. left. by apply ms_in_root. }
  rewrite (rverify_eq ovf g rs X k x p L Ex (nb_nbl _ _ NB)), Er in Ev.
  destruct (Nat.leb_spec (length (right_siblings p)) (length (turns false k 256))) as [Lr|Lr]; [|done]. cbn [ensure_] in Ev. rewrite bind_Ok in Ev.
  destruct (trim_any (lsib H (H <$> X) k) k (length (right_siblings p)) 256 (le_n _)) as (d & Ld & Et & Hp). rewrite Et, bind_Ok in Ev.
  rewrite <- left_hashes_lsib in Ev by done.
  apply C32_range_sound in Ev.
  2:{ unfold left_hashes. rewrite map_length. pose proof (turns_length k 256). pose proof (turns_mono true k d 256 Ld). lia. }
  cbn [ln_key ln_vh] in Ev. set (qs := root_inputs H m ++ root_inputs H X ++ range_inputs H (LeafNode k (H x)) (left_hashes H X k d) p).
  assert (Q1 : forall z, z ∈ root_inputs H m -> z ∈ qs) by (intros z Hz; apply elem_of_app; by left).
  assert (Q2 : forall z, z ∈ root_inputs H X -> z ∈ qs) by (intros z Hz; apply elem_of_app; right; apply elem_of_app; by left).
  cut (upto m X k \/ hash_broken H qs). { intros [|B]; [by left|]. right. by exists x, d. }
  destruct Ev as [(xm & n & Em & Eh & Pe & El & _)|B].
  2:{ right. eapply broken_mono; [|exact B]. intros z Hz. apply elem_of_app in Hz as [Hz|Hz]; [by apply Q1|]. apply elem_of_app; right; apply elem_of_app; by right. }
  pose proof Pe as Pe'. apply (path_ends_term H) in Pe as T. assert (Hn : n <= 256) by apply Pe'. rewrite !left_hashes_lsib in El by done.
  assert (Et' : turns true k d = turns true k n) by (apply turns_eq; apply (f_equal length) in El; by rewrite !map_length in El).
  rewrite <- Et' in El.
  assert (Mk : (H <$> m) !! k <> None) by (by rewrite lookup_fmap, Em).
  (* the subtrees to the left *)
  assert (Un : (forall i, i ∈ turns true k 256 -> under (kpre i k ++ [false]) (H <$> X) = under (kpre i k ++ [false]) (H <$> m)) \/ hash_broken H qs).
  { apply all_or. intros i Hi. apply elem_of_turns in Hi as [Li B]. destruct (decide (i ∈ turns true k d)) as [Hd|Hd].
    - assert (E : lsib H (H <$> X) k i = lsib H (H <$> m) k i).
      { clear -El Hd. induction (turns true k d) as [|a l IH]; [by apply elem_of_nil in Hd|]. cbn [map] in El. injection El as E1 E2.
        apply elem_of_cons in Hd as [->|Hd]; [done|by apply IH]. }
      unfold lsib, hsib in E. rewrite !smt_node_hash, B in E. cbn [negb] in E. apply (ms_inj H qs _ _ (255 - i)) in E; [done|rewrite app_length, kpre_length; cbn; lia| |].
      + intros z Hz. apply Q2, ms_in_root. eapply ms_in_up; [|exact Hz]. rewrite app_length, kpre_length; cbn; lia.
      + intros z Hz. apply Q1, ms_in_root. eapply ms_in_up; [|exact Hz]. rewrite app_length, kpre_length; cbn; lia.
    - left. assert (Ni : d <= i) by (destruct (decide (d <= i)); [done|]; exfalso; apply Hd, elem_of_turns; split; [lia|done]).
      assert (Nn : n <= i) by (destruct (decide (n <= i)); [done|]; exfalso; apply Hd; rewrite Et'; apply elem_of_turns; split; [lia|done]).
      specialize (Hp i Li B Ni). unfold lsib, hsib in Hp. rewrite smt_node_hash, B in Hp. cbn [negb] in Hp. apply nb_iff in Hp; [|done]. rewrite Hp.
      pose proof (term_beside (H <$> m) k n i T Nn Li Mk) as E. rewrite B in E. cbn [negb] in E. done. }
  destruct Un as [Un|]; [|by right].
  assert (Hl : forall y, key_lt y k -> (H <$> X) !! y = (H <$> m) !! y).
  { intros y Ly. apply key_lt_iff in Ly as (i & Li & P & B1 & B2). specialize (Un i ltac:(apply elem_of_turns; done)).
    assert (Hy : haspre (kpre i k ++ [false]) y) by (apply haspre_snoc; [rewrite kpre_length; lia|]; rewrite kpre_length by lia; split; [by apply haspre_kpre; [lia|]|done]).
    apply option_eq. intros z. split; intros Ez.
    - assert (Y : under (kpre i k ++ [false]) (H <$> X) !! y = Some z) by (by apply under_lookup). rewrite Un in Y. by apply under_lookup in Y as [Y _].
    - assert (Y : under (kpre i k ++ [false]) (H <$> m) !! y = Some z) by (by apply under_lookup). rewrite <- Un in Y. by apply under_lookup in Y as [Y _]. }
  assert (Hk : (H <$> X) !! k = (H <$> m) !! k) by (rewrite !lookup_fmap, Ex, Em; cbn; by rewrite Eh).
  assert (Hle : forall y, key_le y k -> (H <$> X) !! y = (H <$> m) !! y) by (intros y [->|?]; [done|by apply Hl]).
  destruct (decide (map_Forall (fun y z => m !! y = Some z) X)) as [F|F].
  - left. intros y. destruct (decide (key_le y k)) as [Ly|Ny].
    + specialize (Hle y Ly). rewrite !lookup_fmap in Hle. destruct (X !! y) as [a|] eqn:Ea; [by rewrite (F y a Ea)|]. by destruct (m !! y).
    + destruct (X !! y) as [a|] eqn:Ea; [|done]. exfalso. by apply Ny, (lv_max _ _ _ _ _ _ L y a).
  - right. apply map_not_Forall in F as (y & a & Ea & Na); [|intros; apply _]. pose proof (lv_max _ _ _ _ _ _ L y a Ea) as Ly. specialize (Hle y Ly).
    rewrite !lookup_fmap, Ea in Hle. destruct (m !! y) as [b|] eqn:Eb; [|done]. cbn in Hle. injection Hle as Hle. left. exists a, b.
    split; [apply Q2; by eapply value_in_root|]. split; [apply Q1; by eapply value_in_root|]. split; [congruence|done].
Qed.
End facts.
