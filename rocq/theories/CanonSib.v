(** Siblings and child lookup of canonical internal nodes. *)
From Verif Require Import Base Spec NodeType KeyFacts SmtFacts ProofFacts NodeFacts Canon.
From Coq Require Import Lia.
Local Opaque Spec.smt.

Section sib.
Context (H : list byte -> bytes32).
Implicit Types (M : gmap key vhash) (ver : list nibble -> version).

Lemma pres_sum M ver p r :
  sum_list (map (fun n => size (U (p ++ [n]) M)) (nibs r)) =
  sum_list (map (fun n => size (U (p ++ [n]) M)) (pres (children_of H M ver p) r)).
Proof.
  unfold pres. generalize (nibs r) as l. induction l as [|n l IH]; [done|]. rewrite filter_cons. cbn [map sum_list_with].
  rewrite children_of_lookup. case_decide as E.
  - simpl. by rewrite IH.
  - simpl. rewrite IH. assert (Z : child_of H M ver p n = None) by (destruct (child_of H M ver p n); [exfalso; eauto|done]).
    apply child_of_none in Z. by rewrite Z, map_size_empty.
Qed.
Lemma pres_in M ver p r n : n ∈ pres (children_of H M ver p) r <-> n ∈ nibs r /\ U (p ++ [n]) M <> ∅.
Proof.
  rewrite elem_of_pres, children_of_lookup. apply and_iff_compat_l. split.
  - intros [c E]. by apply child_of_inv in E as [? _].
  - intros Ne. destruct (child_of_some H M ver p n Ne) as (c & E & _). eauto.
Qed.

Lemma range_canon M ver p r h bm : length p < 64 -> length r + h = 4 -> bm_ok bm (children_of H M ver p) [] ->
  exists rb : N * N, range_bitmaps (pstart r) h bm = Ok rb /\ bm_ok rb (children_of H M ver p) r /\
  ((under (bits p ++ r) M = ∅ /\ (rb.1 =? 0)%N = true) \/
   (exists m, m ∈ nibs r /\ size (under (bits p ++ r) M) = 1 /\ U (p ++ [m]) M = under (bits p ++ r) M /\
     (rb.1 =? 0)%N = false /\ nib_from_u8 (trailing_zeros rb.1) = Ok m /\ has_only_child h rb.1 rb.2 = true /\
     has_child h rb.1 (N.shiftl 1 (nib_to_N m)) rb.2 = true) \/
   (2 <= size (under (bits p ++ r) M) /\ (rb.1 =? 0)%N = false /\
     ((h = 0 /\ has_only_child h rb.1 rb.2 = true /\ (forall x, has_child h rb.1 x rb.2 = true) /\
        exists m, r = nib_bits m /\ nib_from_u8 (trailing_zeros rb.1) = Ok m) \/
      (h <> 0 /\ has_only_child h rb.1 rb.2 = false /\
        forall n, has_child h rb.1 (N.shiftl 1 (nib_to_N n)) rb.2 = false)))).
Proof.
  intros Lp L B. destruct (range_spec r h bm (children_of H M ver p) L) as (rb & E & S1 & S2 & B' & P & R).
  { by apply bm_ok_prefix. }
  exists rb. split; [done|]. split; [done|].
  rewrite (pres_empty_bit rb (children_of H M ver p) r) by done.
  pose proof (size_range p M Lp h r L) as S. rewrite (pres_sum M ver) in S.
  destruct (pres (children_of H M ver p) r) as [|m l] eqn:Ep.
  { left. split; [|done]. simpl in S. by apply map_size_empty_iff. }
  right. rewrite bool_decide_false by done.
  assert (m ∈ nibs r /\ U (p ++ [m]) M <> ∅) as [Hm Ne].
  { apply (pres_in M ver). rewrite Ep. apply elem_of_list_here. }
  destruct (child_of_some H M ver p m Ne) as (c & Ec & Eh & Ev & Ecount & El).
  assert (Hsub : U (p ++ [m]) M ⊆ under (bits p ++ r) M).
  { destruct (bits_pre_nib p r m Hm) as [q Eq]. unfold U. rewrite Eq. apply under_app_sub. }
  assert (Tz : nib_from_u8 (trailing_zeros rb.1) = Ok m).
  { rewrite trailing_zeros_set16, P. apply nib_from_u8_nib. }
  destruct l as [|m2 l].
  - simpl in S. rewrite Nat.add_0_r in S.
    assert (RL : negb (rb.2 =? 0)%N = c_is_leaf c).
    { eapply rl_nonzero_single; [exact R|exact Ep|]. by rewrite children_of_lookup. }
    assert (P1 : rb.1 = N.shiftl 1 (nib_to_N m)) by (apply single_bit_set16; done).
    assert (CO : count_ones rb.1 = 1) by (by rewrite count_ones_set16, P).
    destruct (decide (size (U (p ++ [m]) M) = 1)) as [One|Many].
    + left. exists m. split; [done|]. split; [lia|]. split.
      { destruct (size_one_inv _ One) as (k & v & E1). assert (size (under (bits p ++ r) M) = 1) as E2 by lia.
        destruct (size_one_inv _ E2) as (k' & v' & E3). rewrite E1, E3 in Hsub. rewrite E1, E3.
        assert (Hl : ({[k' := v']} : gmap key vhash) !! k = Some v).
        { eapply lookup_weaken; [|exact Hsub]. apply lookup_singleton. }
        apply lookup_singleton_Some in Hl as [-> ->]. done. }
      split; [done|]. split; [done|]. unfold has_only_child, has_child.
      rewrite CO, RL, El, One, P1, N.eqb_refl. cbn [Nat.eqb andb]. rewrite orb_true_r. done.
    + right. apply size_ne in Ne. split; [lia|]. split; [done|].
      assert (Lf : c_is_leaf c = false) by (rewrite El; by apply Nat.eqb_neq).
      destruct h as [|h].
      * left. split; [done|]. split; [done|]. split; [done|]. destruct (nibs_4' r) as [m' ->]; [lia|].
        rewrite nibs_4 in Hm. apply elem_of_list_singleton in Hm as ->. eauto.
      * right. split; [done|]. unfold has_only_child, has_child. rewrite RL, Lf. cbn [Nat.eqb orb].
        rewrite andb_false_r. split; [done|]. intros. apply andb_false_r.
  - assert (m2 ∈ nibs r /\ U (p ++ [m2]) M <> ∅) as [Hm2 Ne2].
    { apply (pres_in M ver). rewrite Ep. apply elem_of_list_further, elem_of_list_here. }
    right. apply size_ne in Ne, Ne2. simpl in S. split; [lia|]. split; [done|].
    destruct h as [|h].
    { exfalso. destruct (nibs_4' r) as [m' ->]; [lia|]. 
      pose proof (NoDup_filter (fun n => is_Some (children_of H M ver p !! n)) _ (nibs_nodup (nib_bits m'))) as ND.
      unfold pres in Ep. rewrite Ep in ND. rewrite nibs_4 in Hm, Hm2.
      apply elem_of_list_singleton in Hm as ->. apply elem_of_list_singleton in Hm2 as ->.
      apply NoDup_cons in ND as [ND _]. apply ND, elem_of_list_here. }
    right. split; [done|]. unfold has_only_child, has_child. rewrite count_ones_set16, P. cbn [length Nat.eqb orb andb].
    split; [done|]. intros n. destruct (N.eqb_spec rb.1 (N.shiftl 1 (nib_to_N n))) as [Z|Z]; [|done].
    apply single_bit_set16 in Z; [|done]. rewrite P in Z. done.
Qed.

(** what the reader must provide: the children of the node at [p] *)
Definition kids_ok (rd : nodekey -> option node) M ver p : Prop :=
  forall n, U (p ++ [n]) M <> ∅ -> rd (ver (p ++ [n]), p ++ [n]) = Some (node_at H M ver (p ++ [n])).

Lemma in_child_canon M ver p s n : U (p ++ [n]) M <> ∅ -> exists c, in_child (mkInternal (children_of H M ver p) s) n = Some c /\
  c_version c = ver (p ++ [n]).
Proof.
  intros Ne. destruct (child_of_some H M ver p n Ne) as (c & E & _ & Ev & _). exists c. unfold in_child. cbn [in_children].
  rewrite children_of_lookup. done.
Qed.

Lemma build_sibling_canon rd M ver w p s r h bm : length p < 64 -> length r + h = 4 ->
  bm_ok bm (children_of H M ver p) [] -> kids_ok rd M ver p ->
  build_sibling H rd (w, p) (mkInternal (children_of H M ver p) s) (pstart r) h bm = Ok (smt_node H (bits p ++ r) M).
Proof.
  intros Lp L B K. destruct (range_canon M ver p r h bm Lp L B) as (rb & E & B' & C).
  unfold build_sibling. rewrite E, bind_Ok.
  destruct C as [(Z & ->)|[(m & Hm & S1 & Eu & -> & Tz & -> & _)|(Hm & -> & C)]].
  - by rewrite smt_node_empty.
  - rewrite Tz, bind_Ok. assert (Ne : U (p ++ [m]) M <> ∅) by (apply size_ne; rewrite Eu; lia).
    destruct (in_child_canon M ver p s m Ne) as (c & -> & Ev). cbn [unwrap]. rewrite bind_Ok.
    unfold gen_child. cbn [snd]. rewrite Ev, (K m Ne). cbn [unwrap]. rewrite bind_Ok.
    destruct (size_one_inv _ S1) as (k & v & S2). rewrite (node_at_leaf H _ _ _ k v) by (by rewrite Eu).
    by rewrite (smt_node_single _ _ _ k v).
  - destruct C as [(-> & -> & _ & m & -> & Tz)|(Hh & -> & _)].
    + rewrite Tz, bind_Ok. rewrite <- bits_snoc in Hm |- *. fold (U (p ++ [m]) M) in Hm. assert (Ne : U (p ++ [m]) M <> ∅) by (apply U_many_ne; done).
      destruct (in_child_canon M ver p s m Ne) as (c & -> & Ev). cbn [unwrap]. rewrite bind_Ok.
      unfold gen_child. cbn [snd]. rewrite Ev, (K m Ne). cbn [unwrap]. rewrite bind_Ok.
      rewrite node_at_internal by done. by apply sm_internal_canon.
    + destruct h as [|h]; [done|]. rewrite <- (pstart_true r h L). rewrite <- (pstart_false r h L) at 1.
      rewrite (merkle_hash_slots H _ h (r ++ [false]) rb); [|rewrite app_length; simpl; lia|apply bm_ok_sub; [lia|done]].
      rewrite bind_Ok.
      rewrite (merkle_hash_slots H _ h (r ++ [true]) rb); [|rewrite app_length; simpl; lia|apply bm_ok_sub; [lia|done]].
      rewrite bind_Ok. cbn [in_children]. rewrite !slots_canon by (done || rewrite app_length; simpl; lia).
      rewrite smt_node_many by done. by rewrite <- !app_assoc.
Qed.

(** bits of a key below a nibble path *)
Lemma kpre_bits p k : p `prefix_of` key_nibbles k -> kpre (4 * length p) k = bits p.
Proof.
  intros [q Eq]. unfold kpre. rewrite key_bits_nibbles, Eq. change (flat_map nib_bits (p ++ q)) with (bits (p ++ q)).
  rewrite bits_app, <- bits_length. apply take_app.
Qed.
Lemma kpre_bits_take p n k j : (p ++ [n]) `prefix_of` key_nibbles k -> j <= 4 ->
  kpre (4 * length p + j) k = bits p ++ take j (nib_bits n).
Proof.
  intros [q Eq] Hj. unfold kpre. rewrite key_bits_nibbles, Eq.
  change (flat_map nib_bits ((p ++ [n]) ++ q)) with (bits ((p ++ [n]) ++ q)).
  rewrite bits_app, bits_snoc, <- app_assoc, <- bits_length. rewrite take_add_app by done. f_equal.
  apply take_app_le. rewrite nib_bits_length. done.
Qed.
Lemma bit_at_bits p n k j : (p ++ [n]) `prefix_of` key_nibbles k -> j < 4 ->
  bit_at k (4 * length p + j) = nth j (nib_bits n) false.
Proof.
  intros Hp Hj. pose proof (kpre_bits_take p n k (S j) Hp ltac:(lia)) as E1.
  pose proof (kpre_bits_take p n k j Hp ltac:(lia)) as E2.
  pose proof (prefix_len_64 _ _ Hp) as L. rewrite app_length in L. simpl in L.
  rewrite Nat.add_succ_r, kpre_S, E2 in E1 by lia.
  rewrite (take_S_r _ _ (nth j (nib_bits n) false)), app_assoc in E1.
  - apply app_inj_2 in E1 as [_ E1]; [|done]. by injection E1 as E1.
  - rewrite nth_lookup. destruct (nib_bits n !! j) eqn:E; [done|]. apply lookup_ge_None in E. rewrite nib_bits_length in E. lia.
Qed.

(** what a child lookup with siblings returns: the path goes down to bit depth [d] *)
Definition sib_result M ver p n k (d : nat) (ck : option nodekey) : Prop :=
  d <= 4 * length p + 4 /\
  (forall j, 4 * length p <= j < d -> 2 <= size (under (kpre j k) M)) /\
  ((under (kpre d k) M = ∅ /\ ck = None) \/
   (exists m, size (under (kpre d k) M) = 1 /\ U (p ++ [m]) M = under (kpre d k) M /\
      ck = Some (ver (p ++ [m]), p ++ [m]) /\ (U (p ++ [n]) M <> ∅ -> m = n)) \/
   (d = 4 * length p + 4 /\ 2 <= size (U (p ++ [n]) M) /\ ck = Some (ver (p ++ [n]), p ++ [n]))).

Lemma U_disjoint_nib {A} (M : gmap key A) p n m : U (p ++ [n]) M <> ∅ -> U (p ++ [n]) M ⊆ U (p ++ [m]) M -> n = m.
Proof.
  intros (k & h & E)%map_choose Hs. pose proof (lookup_weaken _ _ _ _ E Hs) as E2.
  apply U_lookup in E as [_ E]. apply U_lookup in E2 as [_ E2].
  pose proof (prefix_weak_total _ _ _ E E2) as W. 
  assert (p ++ [n] = p ++ [m]) as Z.
  { destruct W as [[q W]|[q W]]; (destruct q as [|x q]; [by rewrite app_nil_r in W|]);
      apply (f_equal length) in W; rewrite !app_length in W; simpl in W; lia. }
  apply app_inv_head in Z. by injection Z.
Qed.

Lemma siblings_loop_canon rd M ver w p s n k only bm : 2 <= size (U p M) ->
  (p ++ [n]) `prefix_of` key_nibbles k ->
  bm_ok bm (children_of H M ver p) [] -> kids_ok rd M ver p -> (only = false -> U (p ++ [n]) M <> ∅) ->
  forall hs acc, 0 < hs -> hs <= 4 -> 
  (forall j, 4 * length p <= j <= 4 * length p + (4 - hs) -> 2 <= size (under (kpre j k) M)) ->
  exists d ck, 4 * length p + (4 - hs) < d /\ sib_result M ver p n k d ck /\
    siblings_loop H rd (w, p) (mkInternal (children_of H M ver p) s) n only bm hs acc =
      Ok (ck, acc ++ map (hsib H M k) (seq (4 * length p + (4 - hs)) (d - (4 * length p + (4 - hs))))).
Proof.
  intros Hmp Hpn B K Ho. pose proof (U_many_len _ _ Hmp) as Lp.
  induction hs as [|h IH]; intros acc Hpos Hle Hmany; [lia|].
  cbn [siblings_loop]. rewrite sibling_half_start_spec, child_half_start_spec by lia.
  rewrite build_sibling_canon; [|done|rewrite app_length, take_length, nib_bits_length; simpl; lia|done|done].
  rewrite bind_Ok.
  set (j := 4 * length p + (4 - S h)).
  assert (Esib : smt_node H (bits p ++ take (3 - h) (nib_bits n) ++ [negb (nth (3 - h) (nib_bits n) false)]) M = hsib H M k j).
  { unfold hsib, j. replace (4 - S h) with (3 - h) by lia. rewrite (kpre_bits_take p n k) by (done || lia).
    rewrite (bit_at_bits p n k) by (done || lia). by rewrite <- app_assoc. }
  rewrite Esib.
  assert (Er : bits p ++ take (4 - h) (nib_bits n) = kpre (S j) k).
  { unfold j. replace (S (4 * length p + (4 - S h))) with (4 * length p + (4 - h)) by lia.
    by rewrite (kpre_bits_take p n k) by (done || lia). }
  assert (Seq : map (hsib H M k) (seq j (S j - j)) = [hsib H M k j]).
  { replace (S j - j) with 1 by lia. done. }
  destruct (range_canon M ver p (take (4 - h) (nib_bits n)) h bm Lp) as (rb & E & B' & C).
  { rewrite take_length, nib_bits_length. lia. } { done. }
  rewrite Er in C. rewrite E, bind_Ok.
  assert (Hin : 2 <= size (under (kpre j k) M)) by (apply Hmany; lia).
  assert (Hnin : n ∈ nibs (take (4 - h) (nib_bits n))).
  { apply elem_of_nibs. rewrite take_length, nib_bits_length. f_equal. lia. }
  destruct C as [(Z & ->)|[(m & Hm & S1 & Eu & -> & Tz & Oc & Hc)|(Hm & -> & C)]].
  - exists (S j), None. split; [lia|]. split.
    { split; [lia|]. split; [|by left]. intros i Hi. apply Hmany. lia. }
    by rewrite Seq.
  - assert (Hnm : U (p ++ [n]) M <> ∅ -> m = n).
    { intros Ne. symmetry. apply (U_disjoint_nib M p); [done|]. rewrite Eu.
      rewrite <- Er. destruct (bits_pre_nib p _ n Hnin) as [q Eq]. unfold U. rewrite Eq. apply under_app_sub. }
    assert (Ne : U (p ++ [m]) M <> ∅) by (apply size_ne; rewrite Eu; lia).
    exists (S j), (Some (ver (p ++ [m]), p ++ [m])). split; [lia|]. split.
    { split; [lia|]. split; [intros i Hi; apply Hmany; lia|]. right; left. exists m. done. }
    rewrite Seq. destruct only; cbn [negb andb].
    + rewrite Oc, Tz, bind_Ok. destruct (in_child_canon M ver p s m Ne) as (c & -> & Ev). cbn [unwrap]. rewrite bind_Ok.
      unfold gen_child. cbn [snd]. by rewrite Ev.
    + rewrite (Hnm (Ho eq_refl)) in *. rewrite Hc. destruct (in_child_canon M ver p s n Ne) as (c & -> & Ev). cbn [unwrap]. rewrite bind_Ok.
      unfold gen_child. cbn [snd]. by rewrite Ev.
  - destruct C as [(-> & Oc & Hc & m & Em & Tz)|(Hh & Oc & Hc)].
    + change (4 - 0) with 4 in *. rewrite take_ge in Em by (rewrite nib_bits_length; lia). apply nib_bits_inj in Em as <-.
      assert (Hk : kpre (S j) k = bits (p ++ [n])).
      { rewrite <- Er, bits_snoc. f_equal. by rewrite take_ge by (rewrite nib_bits_length; lia). }
      rewrite Hk in Hm. fold (U (p ++ [n]) M) in Hm. pose proof (U_many_ne _ _ Hm) as Ne.
      exists (S j), (Some (ver (p ++ [n]), p ++ [n])). split; [lia|]. split.
      { split; [lia|]. split; [intros i Hi; apply Hmany; lia|]. right; right. split; [lia|]. done. }
      rewrite Seq. rewrite Oc, (Hc (N.shiftl 1 (nib_to_N n))), Tz, bind_Ok.
      destruct (in_child_canon M ver p s n Ne) as (c & -> & Ev). cbn [unwrap]. rewrite bind_Ok.
      unfold gen_child. cbn [snd]. rewrite Ev. by destruct only.
    + rewrite Oc, (Hc n), !andb_false_r.
      destruct (IH (acc ++ [hsib H M k j])) as (d & ck & Hd & SR & Eloop); [lia|lia| |].
      { intros i Hi. destruct (decide (i <= j)); [apply Hmany; lia|]. replace i with (S j) by lia. done. }
      exists d, ck. split; [lia|]. split; [done|]. rewrite Eloop. f_equal. f_equal.
      rewrite <- app_assoc. f_equal. replace (d - j) with (S (d - (4 * length p + (4 - h)))) by lia.
      cbn [seq map]. do 2 f_equal. f_equal. lia.
Qed.

Lemma child_with_siblings_canon rd M ver w p s n k only : 2 <= size (U p M) ->
  (p ++ [n]) `prefix_of` key_nibbles k -> kids_ok rd M ver p -> (only = false -> U (p ++ [n]) M <> ∅) ->
  exists d ck, 4 * length p < d /\ sib_result M ver p n k d ck /\
    get_child_with_siblings_helper H rd (w, p) (mkInternal (children_of H M ver p) s) n only =
      Ok (ck, map (hsib H M k) (seq (4 * length p) (d - 4 * length p))).
Proof.
  intros Hmp Hpn K Ho. unfold get_child_with_siblings_helper.
  destruct (generate_bitmaps_spec (mkInternal (children_of H M ver p) s)) as (bm & -> & B). rewrite bind_Ok.
  destruct (siblings_loop_canon rd M ver w p s n k only bm Hmp Hpn B K Ho 4 []) as (d & ck & Hd & SR & E); [lia|lia| |].
  { intros j Hj. replace j with (4 * length p) by lia. rewrite kpre_bits; [done|].
    by eapply prefix_app_l. }
  exists d, ck. replace (4 * length p + (4 - 4)) with (4 * length p) in * by lia. done.
Qed.
End sib.
