(** Facts about the model of the proof verifiers (ProofDef.v) against the sparse Merkle specification. *)
From Coq Require Import Strings.String.
From Verif Require Import Base Spec NodeType ProofDef KeyFacts SmtFacts.
From Coq Require Import Lia.

Lemma ensure_ok b s : ensure_ b s = Ok tt <-> b = true.
Proof. destruct b; simpl; split; intros; congruence. Qed.
Lemma bind_ok {A B} (m : outcome A) (f : A -> outcome B) b :
  (m ≫= f) = Ok b <-> exists a, m = Ok a /\ f a = Ok b.
Proof. destruct m; simpl; split; [eauto| |discriminate| |discriminate|]; intros (a' & E & E2); congruence. Qed.
Lemma bind_Ok {A B} (a : A) (f : A -> outcome B) : (Ok a ≫= f) = f a.
Proof. reflexivity. Qed.
Lemma Ok_inj {A} (a b : A) : Ok a = Ok b -> a = b.
Proof. by intros [= ->]. Qed.
Lemma ensure_true s : ensure_ true s = Ok tt.
Proof. reflexivity. Qed.
Lemma ensure_bind {B} (b : bool) s (f : outcome B) x : (_ ← ensure_ b s; f) = Ok x <-> b = true /\ f = Ok x.
Proof. destruct b; simpl; split; try naive_solver; intros; discriminate. Qed.
Lemma usub_true_ok a b c : usub true a b = Ok c <-> (b <= a)%N /\ c = (a - b)%N.
Proof. unfold usub. destruct (N.leb_spec b a); split; intros E; try (injection E as <-; done); try naive_solver; try discriminate; lia. Qed.
Lemma usub_ok ovf a b : (b <= a)%N -> usub ovf a b = Ok (a - b)%N.
Proof. intros Hl. unfold usub. destruct (N.leb_spec b a); [done|lia]. Qed.
Lemma usub_panic a b : (a < b)%N -> usub true a b = Panic.
Proof. intros Hl. unfold usub. destruct (N.leb_spec b a); [lia|done]. Qed.
Lemma uadd_ok ovf a b : (a + b < usize_mod)%N -> uadd ovf a b = Ok (a + b)%N.
Proof. intros Hl. unfold uadd. destruct (N.ltb_spec (a + b) usize_mod); [done|lia]. Qed.

Lemma rev_repl {A} n (x : A) : rev (replicate n x) = replicate n x.
Proof. rewrite <- (reverse_replicate n x) at 2. unfold reverse. by rewrite rev_alt. Qed.

Section facts.
Context (H : list byte -> bytes32).
Implicit Types M : gmap key vhash.
Notation ms := (ms H). Notation hsibs := (hsibs H). Notation climb := (climb H).

(** The proof the specification tree of [M] gives for [k]. *)
Definition hproof M k n : sm_proof := SMProof (hleaf M k n) (rev (hsibs M k n)).
(** Inputs hashed when checking proof [p] along the bits of [k]. *)
Definition proof_inputs (k : key) (p : sm_proof) : list (list byte) :=
  climb_inputs H (kpre (length (p_siblings p)) k) (rev (p_siblings p)) (opt_leaf_hash H (p_leaf p))
  ++ opt_leaf_inputs (p_leaf p).

Lemma recompute_sound qs M k p : length (p_siblings p) <= 256 ->
  (forall x, x ∈ ms_in H [] M -> x ∈ qs) -> (forall x, x ∈ proof_inputs k p -> x ∈ qs) ->
  fold_path H (opt_leaf_hash H (p_leaf p)) (p_siblings p)
    (rev_bits_skip k (256 - N.of_nat (length (p_siblings p)))) = ms [] M ->
  hash_broken H qs \/ (term M k (length (p_siblings p)) /\ p = hproof M k (length (p_siblings p))).
Proof.
  intros Hn Q1 Q2 E. rewrite fold_path_climb in E by done.
  assert (L : length (rev (p_siblings p)) = length (p_siblings p)) by apply rev_length.
  destruct (climb_sound H qs M k (p_leaf p) (rev (p_siblings p)) 0) as [|(S1 & S2 & S3 & S4)];
    rewrite ?L, ?drop_0; try done.
  - intros x Hx. apply Q2. apply elem_of_app. by left.
  - intros x Hx. apply Q2. apply elem_of_app. by right.
  - by left.
  - right. simpl in *. rewrite L in *. split.
    + split; [done|]. split; [done|]. intros i Hi. apply S2; lia.
    + destruct p as [lf sibs]; simpl in *. unfold hproof. f_equal; [done|].
      unfold SmtFacts.hsibs. rewrite <- S4, rev_involutive. done.
Qed.
Lemma recompute_honest M k n h : n <= 256 ->
  fold_path H h (rev (hsibs M k n)) (rev_bits_skip k (256 - N.of_nat n)) = climb (kpre n k) (hsibs M k n) h.
Proof.
  intros Hn. pose proof (fold_path_climb H h (rev (hsibs M k n)) k) as E.
  rewrite rev_length, hsibs_length, rev_involutive in E. by apply E.
Qed.
Lemma term_climb M k n : term M k n -> climb (kpre n k) (hsibs M k n) (opt_leaf_hash H (hleaf M k n)) = ms [] M.
Proof. intros (Hn & Hs & Hm). rewrite hleaf_hash by done. by apply climb_honest. Qed.

(** ** verify *)
Lemma verify_sound qs M k p v :
  (forall x, x ∈ ms_in H [] M -> x ∈ qs) -> (forall x, x ∈ proof_inputs k p -> x ∈ qs) ->
  verify H p (ms [] M) k v = Ok tt ->
  hash_broken H qs \/
  (term M k (length (p_siblings p)) /\ p = hproof M k (length (p_siblings p)) /\ M !! k = H <$> v).
Proof.
  intros Q1 Q2. unfold verify. rewrite ensure_bind. intros [Hn E].
  apply Nat.leb_le in Hn. rewrite bind_ok in E. destruct E as ([] & Ev & E).
  rewrite usub_ok in E by lia. cbn [mbind outcome_bind] in E.
  apply ensure_ok, bool_decide_eq_true in E.
  destruct (recompute_sound qs M k p Hn Q1 Q2 E) as [|[T Hp]]; [by left|].
  right. split; [done|]. split; [done|].
  pose proof (term_cases _ _ _ T) as C.
  assert (Hl : p_leaf p = hleaf M k (length (p_siblings p))) by (by rewrite Hp at 1).
  destruct v as [x|].
  - destruct (p_leaf p) as [l|]; [|done]. rewrite ensure_bind in Ev. destruct Ev as [E1 E2].
    apply bool_decide_eq_true in E1. apply ensure_ok, bool_decide_eq_true in E2.
    destruct C as [(_ & C & _)|(k' & h & _ & C & C2 & _)]; rewrite C in Hl; [done|].
    injection Hl as ->. simpl in *. subst. unfold value_hash. done.
  - destruct (p_leaf p) as [l|].
    + rewrite ensure_bind in Ev. destruct Ev as [E1 _].
      apply negb_true_iff, bool_decide_eq_false in E1.
      destruct C as [(_ & C & _)|(k' & h & _ & C & C2 & _ & C3)]; rewrite C in Hl; [done|].
      injection Hl as ->. simpl in *. apply C3. done.
    + destruct C as [(_ & C & ?)|(k' & h & _ & C & _)]; rewrite C in Hl; done.
Qed.
Lemma verify_complete M k n v : term M k n -> M !! k = H <$> v -> verify H (hproof M k n) (ms [] M) k v = Ok tt.
Proof.
  intros T Hv. pose proof T as (Hn & Hs & Hm). unfold verify, hproof; simpl p_leaf; simpl p_siblings.
  rewrite rev_length, hsibs_length. rewrite (proj2 (Nat.leb_le _ _) Hn). cbn [ensure_ mbind outcome_bind].
  rewrite usub_ok by lia. cbn [mbind outcome_bind]. rewrite recompute_honest, term_climb by done.
  rewrite bool_decide_true by done.
  destruct (term_cases _ _ _ T) as [(_ & -> & C)|(k' & h & _ & -> & C2 & C3 & C4)].
  - destruct v; [|done]. rewrite C in Hv. done.
  - destruct v as [x|]; simpl in *.
    + destruct (decide (k' = k)) as [->|Hne]; [|rewrite C4 in Hv; done].
      rewrite C2 in Hv. injection Hv as ->.
      rewrite !bool_decide_true by done. done.
    + assert (k <> k') by (intros ->; congruence). rewrite bool_decide_false by done. simpl.
      assert (n <= common_prefix_bits_len k k') as L by (apply cpbl_kpre; done).
      rewrite (proj2 (Nat.leb_le _ _) L). done.
Qed.
Lemma verify_no_panic p r k v : verify H p r k v <> Panic.
Proof.
  unfold verify. destruct (Nat.leb_spec (length (p_siblings p)) 256); cbn [ensure_ mbind outcome_bind]; [|done].
  rewrite usub_ok by lia.
  destruct v as [x|], (p_leaf p) as [lf|]; simpl; repeat (case_bool_decide; simpl; try done).
  all: try (destruct (_ <=? _)%nat); simpl; repeat (case_bool_decide; simpl; try done); done.
Qed.

(** ** root_hash *)
Lemma root_hash_honest ovf M k l n : n <= 256 -> ln_key l = k ->
  root_hash H ovf (SMProof (Some l) (rev (hsibs M k n))) =
  Ok (climb (kpre n k) (hsibs M k n) (leaf_hash H l)).
Proof.
  intros Hn <-. unfold root_hash. simpl. rewrite rev_length, hsibs_length.
  rewrite usub_ok by lia. simpl. by rewrite recompute_honest.
Qed.

(** ** Effect of one write on the specification tree *)
Definition apply_vh M k (v : option vhash) : gmap key vhash :=
  match v with Some h => <[ k := h ]> M | None => delete k M end.
Lemma not_haspre_sib i k : i < 256 -> ~ haspre (kpre i k ++ [negb (bit_at k i)]) k.
Proof.
  intros Hi. rewrite haspre_snoc by (rewrite kpre_length; lia). rewrite kpre_length by lia.
  intros [_ E]. by destruct (bit_at k i).
Qed.
Lemma hsib_apply M k v i : i < 256 -> hsib H (apply_vh M k v) k i = hsib H M k i.
Proof.
  intros Hi. unfold hsib. apply smt_node_under. pose proof (not_haspre_sib i k Hi).
  destruct v; simpl; [by apply under_insert_out|by apply under_delete_out].
Qed.
Lemma hsibs_apply M k v n : n <= 256 -> hsibs (apply_vh M k v) k n = hsibs M k n.
Proof.
  intros Hn. unfold SmtFacts.hsibs. apply map_ext_in. intros i [_ Hi]%in_seq. apply hsib_apply. lia.
Qed.
Lemma size_insert_ge {A} (m : gmap key A) k h : size m <= size (<[k:=h]> m).
Proof. rewrite map_size_insert. destruct (m !! k); simpl; lia. Qed.
Lemma size_under_insert {A} p (M : gmap key A) k h : size (under p M) <= size (under p (<[k:=h]> M)).
Proof.
  destruct (decide (haspre p k)).
  - rewrite under_insert_in by done. apply size_insert_ge.
  - by rewrite under_insert_out.
Qed.
Lemma haspre_self n k : n <= 256 -> haspre (kpre n k) k.
Proof. intros. by apply haspre_kpre. Qed.

Lemma set_at_end M k n h : term M k n ->
  (under (kpre n k) M = ∅ \/ exists h0, under (kpre n k) M = {[ k := h0 ]}) ->
  climb (kpre n k) (hsibs M k n) (leaf_hash H (LeafNode k h)) = ms [] (<[k := h]> M).
Proof.
  intros (Hn & Hs & Hm) C.
  rewrite <- (hsibs_apply M k (Some h) n) by done. simpl.
  rewrite <- (ms_single H (kpre n k) (<[k:=h]> M) k h).
  - apply climb_honest; [done|]. intros i Hi. etrans; [apply Hm, Hi|]. apply size_under_insert.
  - rewrite under_insert_in by (by apply haspre_self).
    destruct C as [->|[h0 ->]]; [done|]. apply insert_singleton.
Qed.
Lemma map_const_replicate {A B} (f : A -> B) b l : (forall a, a ∈ l -> f a = b) -> map f l = replicate (length l) b.
Proof.
  induction l as [|a l IH]; intros Hf; simpl; [done|]. rewrite Hf by apply elem_of_list_here.
  rewrite IH; [done|]. intros; apply Hf; by apply elem_of_list_further.
Qed.
Lemma split_sibs M k n k' h' h : term M k n -> under (kpre n k) M = {[ k' := h' ]} -> k <> k' ->
  let c := common_prefix_bits_len k k' in
  n <= c /\ c < 256 /\
  hsibs (<[k := h]> M) k (S c) = hsibs M k n ++ replicate (c - n) SMNull ++ [SMLeaf (LeafNode k' h')].
Proof.
  intros T Eu Hne c. pose proof T as (Hn & Hs & Hm).
  destruct (term_cases _ _ _ T) as [(E & _)|(k2 & h2 & E & _ & C2 & C3 & C4)].
  { rewrite E in Eu. exfalso. symmetry in Eu. exact (map_non_empty_singleton _ _ Eu). }
  rewrite E in Eu. apply (f_equal (lookup k')) in Eu as Eu2. rewrite lookup_singleton in Eu2.
  apply lookup_singleton_Some in Eu2 as [-> ->]. clear Eu.
  assert (Hc : n <= c) by (apply cpbl_kpre; done).
  assert (Hc2 : c < 256) by (by apply cpbl_ne).
  split; [done|]. split; [done|].
  rewrite hsibs_S. change (<[k:=h]> M) with (apply_vh M k (Some h)).
  replace c with (n + (c - n)) at 1 by lia. unfold SmtFacts.hsibs at 1.
  rewrite seq_app, map_app, <- app_assoc. f_equal; [by apply hsibs_apply|]. f_equal.
  - rewrite map_const_replicate with (b := SMNull); [by rewrite seq_length|].
    intros i [Hi1 Hi2]%elem_of_seq. rewrite hsib_apply by lia.
    unfold hsib. apply smt_node_empty. apply map_empty. intros k2.
    destruct (under _ M !! k2) as [h2|] eqn:E2; [|done]. exfalso.
    apply under_lookup in E2 as [E2 E3]. rewrite haspre_snoc in E3 by (rewrite kpre_length; lia).
    rewrite kpre_length in E3 by lia. destruct E3 as [E3 E4].
    apply haspre_kpre in E3; [|lia].
    assert (under (kpre n k) M !! k2 = Some h2) as E5.
    { apply under_lookup. split; [done|]. apply haspre_kpre; [done|]. by apply (kpre_le n i). }
    rewrite E in E5. apply lookup_singleton_Some in E5 as [<- <-].
    assert (bit_at k' i = bit_at k i) as B.
    { apply (kpre_bit i c); [lia|lia|]. symmetry. apply cpbl_le. done. }
    rewrite B in E4. by destruct (bit_at k i).
  - rewrite hsib_apply by lia. f_equal. unfold hsib. apply smt_node_single.
    apply map_eq. intros k2. apply option_eq. intros h2.
    rewrite under_lookup, lookup_singleton_Some, haspre_snoc by (rewrite kpre_length; lia).
    rewrite kpre_length by lia. rewrite haspre_kpre by lia. split.
    + intros (E2 & E3 & E4).
      assert (under (kpre n k) M !! k2 = Some h2) as E5.
      { apply under_lookup. split; [done|]. apply haspre_kpre; [done|]. by apply (kpre_le n c). }
      rewrite E in E5. by apply lookup_singleton_Some in E5.
    + intros [<- <-]. split; [done|]. split; [symmetry; by apply cpbl_le|].
      pose proof (cpbl_bit_ne k k' Hne) as B. fold c in B. destruct (bit_at k c), (bit_at k' c); done.
Qed.
Lemma split_root M k n k' h' h : term M k n -> under (kpre n k) M = {[ k' := h' ]} -> k <> k' ->
  let c := common_prefix_bits_len k k' in
  climb (kpre (S c) k) (hsibs (<[k := h]> M) k (S c)) (leaf_hash H (LeafNode k h)) = ms [] (<[k := h]> M).
Proof.
  intros T Eu Hne c. destruct (split_sibs M k n k' h' h T Eu Hne) as (Hc & Hc2 & Es). fold c in Hc, Hc2, Es.
  pose proof T as (Hn & Hs & Hm).
  assert (Ek' : M !! k' = Some h').
  { assert (under (kpre n k) M !! k' = Some h') as E5 by (rewrite Eu; apply lookup_singleton).
    apply under_lookup in E5 as [? _]; done. }
  rewrite <- (ms_single H (kpre (S c) k) (<[k:=h]> M) k h).
  - apply climb_honest; [lia|]. intros i Hi.
    apply (size_many _ k h k' h'); [| |done]; rewrite under_lookup.
    + split; [apply lookup_insert|]. apply haspre_self. lia.
    + split; [by rewrite lookup_insert_ne|]. apply haspre_kpre; [lia|]. symmetry. apply cpbl_le. unfold c in *. lia.
  - rewrite under_insert_in by (apply haspre_self; lia).
    replace (under (kpre (S c) k) M) with (∅ : gmap key vhash); [done|].
    symmetry. apply map_empty. intros k2. destruct (under _ M !! k2) as [h2|] eqn:E2; [|done]. exfalso.
    apply under_lookup in E2 as [E2 E3]. apply haspre_kpre in E3; [|lia].
    assert (under (kpre n k) M !! k2 = Some h2) as E5.
    { apply under_lookup. split; [done|]. apply haspre_kpre; [done|]. apply (kpre_le n (S c)); [lia|done]. }
    rewrite Eu in E5. apply lookup_singleton_Some in E5 as [<- <-].
    apply (cpbl_bit_ne k k' Hne). fold c. symmetry. apply (kpre_bit c (S c)); [lia|lia|done].
Qed.

(** deletion of a present key: its last sibling is not empty *)
Lemma last_sib_nonempty M k n h : term M k (S n) -> M !! k = Some h ->
  under (kpre n k ++ [negb (bit_at k n)]) M <> ∅.
Proof.
  intros (Hn & Hs & Hm) Hk E. assert (2 <= size (under (kpre n k) M)) as Hm' by (apply Hm; lia).
  pose proof (under_half_empty (kpre n k) (negb (bit_at k n)) M) as G.
  rewrite kpre_length, negb_involutive in G by lia. rewrite <- G, <- kpre_S in Hm' by (done || lia). lia.
Qed.
Lemma under_kpre_S_delete M k i : i < 256 -> under (kpre (S i) k) (delete k M) = ∅ ->
  under (kpre i k) (delete k M) = under (kpre i k ++ [negb (bit_at k i)]) M.
Proof.
  intros Hi E. rewrite kpre_S in E by done.
  rewrite <- (under_half_empty (kpre i k) (bit_at k i)) by (rewrite ?kpre_length by lia; done || lia).
  apply under_delete_out. by apply not_haspre_sib.
Qed.
Lemma hsib_null M k i : hsib H M k i = SMNull -> under (kpre i k ++ [negb (bit_at k i)]) M = ∅.
Proof.
  unfold hsib. destruct (size_cases (under (kpre i k ++ [negb (bit_at k i)]) M)) as [E|[(k' & h & E)|Hm]]; [done| |].
  - rewrite (smt_node_single _ _ _ k' h) by done. done.
  - by rewrite smt_node_many.
Qed.
Lemma hsib_leaf M k i l : hsib H M k i = SMLeaf l ->
  under (kpre i k ++ [negb (bit_at k i)]) M = {[ ln_key l := ln_vh l ]}.
Proof.
  unfold hsib. destruct (size_cases (under (kpre i k ++ [negb (bit_at k i)]) M)) as [E|[(k' & h & E)|Hm]].
  - by rewrite smt_node_empty.
  - rewrite (smt_node_single _ _ _ k' h) by done. intros [= <-]. done.
  - by rewrite smt_node_many.
Qed.
Lemma hsib_internal M k i a b : hsib H M k i = SMInternal a b ->
  2 <= size (under (kpre i k ++ [negb (bit_at k i)]) M).
Proof.
  unfold hsib. destruct (size_cases (under (kpre i k ++ [negb (bit_at k i)]) M)) as [E|[(k' & h & E)|Hm]].
  - by rewrite smt_node_empty.
  - by rewrite (smt_node_single _ _ _ k' h).
  - done.
Qed.
Lemma rev_hsibs_S M k n : rev (hsibs M k (S n)) = hsib H M k n :: rev (hsibs M k n).
Proof. rewrite hsibs_S, rev_app_distr. done. Qed.

(** going up past Null siblings with a single remaining entry *)
Lemma drop_nulls_up M' M k l n : n <= 256 -> (forall i, i < n -> hsib H M' k i = hsib H M k i) ->
  under (kpre n k) M' = {[ ln_key l := ln_vh l ]} ->
  exists i, i <= n /\ drop_nulls (rev (hsibs M k n)) = rev (hsibs M k i) /\
    under (kpre i k) M' = {[ ln_key l := ln_vh l ]} /\ forall j, j < i -> 2 <= size (under (kpre j k) M').
Proof.
  induction n as [|n IH]; intros Hn Hh Eu.
  - exists 0. split_and!; try done. intros; lia.
  - rewrite rev_hsibs_S.
    assert (Hu : under (kpre n k) M' !! ln_key l = Some (ln_vh l)).
    { eapply lookup_weaken; [|apply (under_kpre_le M' k n (S n)); lia]. rewrite Eu. apply lookup_singleton. }
    destruct (hsib H M k n) as [|a b|l'] eqn:Es.
    + destruct IH as (i & Hi & E1 & E2 & E3); [lia|intros; apply Hh; lia| |exists i; split_and!; try done; lia].
      rewrite <- Hh in Es by lia. apply hsib_null in Es.
      pose proof (under_half_empty (kpre n k) (negb (bit_at k n)) M') as G.
      rewrite kpre_length, negb_involutive in G by lia. rewrite <- G, <- kpre_S by (done || lia). done.
    + exists (S n). split; [lia|]. split; [by rewrite rev_hsibs_S, Es|]. split; [done|].
      intros j Hj. rewrite <- Hh in Es by lia. apply hsib_internal in Es.
      etrans; [|apply (size_kpre_le M' k j n); lia]. etrans; [exact Es|]. apply size_le, under_app_sub.
    + exists (S n). split; [lia|]. split; [by rewrite rev_hsibs_S, Es|]. split; [done|].
      intros j Hj. rewrite <- Hh in Es by lia. apply hsib_leaf in Es.
      etrans; [|apply (size_kpre_le M' k j n); lia].
      apply (size_many _ (ln_key l) (ln_vh l) (ln_key l') (ln_vh l')); [done| |].
      * eapply lookup_weaken; [|apply (under_app_sub (kpre n k) [negb (bit_at k n)])]. rewrite Es. apply lookup_singleton.
      * intros Ee.
        assert (E1 : haspre (kpre n k ++ [negb (bit_at k n)]) (ln_key l')).
        { eapply (proj2 (proj1 (under_lookup _ M' _ _) (eq_trans (f_equal (lookup (ln_key l')) Es) (lookup_singleton _ _)))). }
        assert (E2 : haspre (kpre (S n) k) (ln_key l)).
        { eapply (proj2 (proj1 (under_lookup _ M' _ _) (eq_trans (f_equal (lookup (ln_key l)) Eu) (lookup_singleton _ _)))). }
        rewrite kpre_S in E2 by lia. rewrite Ee in E2.
        rewrite haspre_snoc in E1, E2 by (rewrite kpre_length; lia).
        destruct E1 as [_ E1], E2 as [_ E2]. rewrite E1 in E2. by destruct (bit_at k n).
Qed.

(** what the deletion branch computes *)
Definition delete_root (ovf : bool) (sibs : list smnode) (k : key) : outcome hash :=
  match drop_nulls sibs with
  | SMInternal _ _ :: _ =>
      n ← usub ovf 256 (N.of_nat (length (drop_nulls sibs)));
      Ok (fold_path H SPARSE_MERKLE_PLACEHOLDER_HASH (drop_nulls sibs) (rev_bits_skip k n))
  | SMLeaf l' :: rest' =>
      n ← usub ovf 256 (N.of_nat (length (drop_nulls rest')));
      Ok (fold_path H (leaf_hash H l') (drop_nulls rest') (rev_bits_skip k n))
  | _ => Ok SPARSE_MERKLE_PLACEHOLDER_HASH
  end.
Lemma delete_honest ovf M k n h : term M k n -> under (kpre n k) M = {[ k := h ]} ->
  delete_root ovf (rev (hsibs M k n)) k = Ok (ms [] (delete k M)).
Proof.
  intros T Eu. pose proof T as (Hn & Hs & Hm). unfold delete_root.
  assert (Hk : M !! k = Some h).
  { assert (under (kpre n k) M !! k = Some h) as E5 by (rewrite Eu; apply lookup_singleton).
    apply under_lookup in E5 as [? _]; done. }
  assert (Eu' : under (kpre n k) (delete k M) = ∅).
  { rewrite under_delete, Eu. apply delete_singleton. }
  destruct n as [|n].
  - simpl. rewrite ms_empty; [done|]. by rewrite under_nil in *.
  - pose proof (last_sib_nonempty _ _ _ _ T Hk) as Hne.
    pose proof (under_kpre_S_delete M k n ltac:(lia) Eu') as Eu2.
    rewrite rev_hsibs_S. destruct (hsib H M k n) as [|a b|l'] eqn:Es.
    + by apply hsib_null in Es.
    + simpl drop_nulls. cbn [length]. rewrite rev_length, hsibs_length. rewrite usub_ok by lia.
      cbn [mbind outcome_bind]. rewrite <- Es, <- rev_hsibs_S. rewrite recompute_honest by done.
      rewrite <- (hsibs_apply M k None) by done. simpl. f_equal.
      rewrite <- (ms_empty H (kpre (S n) k) (delete k M)) by done.
      apply climb_honest; [done|]. intros i Hi. apply hsib_internal in Es. rewrite <- Eu2 in Es.
      etrans; [exact Es|]. apply size_kpre_le. lia.
    + apply hsib_leaf in Es. rewrite <- Eu2 in Es.
      destruct (drop_nulls_up (delete k M) M k l' n) as (i & Hi & E1 & E2 & E3); [lia| |done|].
      { intros i Hi. apply (hsib_apply M k None). lia. }
      simpl drop_nulls. cbn iota. rewrite E1, rev_length, hsibs_length, usub_ok by lia.
      cbn [mbind outcome_bind]. rewrite recompute_honest by lia. f_equal.
      rewrite <- (hsibs_apply M k None) by lia. simpl.
      destruct l' as [k' h']. rewrite <- (ms_single H (kpre i k) (delete k M) k' h') by done.
      apply climb_honest; [lia|done].
Qed.

(** ** The number of default siblings computed on a split *)
Lemma count_eq_bits_lcp (x y : list bool) : length x = length y -> x <> y -> count_eq_bits x y = Ok (N.of_nat (lcp x y)).
Proof.
  revert y; induction x as [|a x IH]; intros [|b y] L Hne; try done.
  simpl. destruct (Bool.eqb a b) eqn:E.
  - apply Bool.eqb_prop in E as ->. rewrite decide_True by done. rewrite IH.
    + simpl. f_equal. lia.
    + simpl in L. lia.
    + congruence.
  - rewrite decide_False; [done|]. intros ->. by rewrite Bool.eqb_reflx in E.
Qed.
Lemma lcp_nibbles_bits (x y : list nibble) : length x = length y -> x <> y ->
  let c := lcp x y in
  exists e, e < 4 /\ lcp (flat_map nib_bits x) (flat_map nib_bits y) = 4 * c + e /\
    count_eq_bits (flat_map nib_bits (drop c x)) (flat_map nib_bits (drop c y)) = Ok (N.of_nat e).
Proof.
  revert y; induction x as [|a x IH]; intros [|b y] L Hne; try done.
  simpl lcp. case_decide as E.
  - subst b. destruct (IH y) as (e & He & E1 & E2); [simpl in L; lia|congruence|].
    exists e. split; [done|]. simpl drop. split; [|done].
    simpl flat_map. rewrite lcp_app, nib_bits_length, E1. lia.
  - simpl drop. assert (Hb : nib_bits a <> nib_bits b) by (intros ?%nib_bits_inj; done).
    exists (lcp (nib_bits a) (nib_bits b)).
    assert (Hl : lcp (nib_bits a) (nib_bits b) < 4).
    { destruct a as [a3 a2 a1 a0], b as [b3 b2 b1 b0]; simpl in *.
      repeat case_decide; subst; try lia. done. }
    split; [done|].
    assert (G : lcp (flat_map nib_bits (a :: x)) (flat_map nib_bits (b :: y)) = lcp (nib_bits a) (nib_bits b)).
    { destruct a as [a3 a2 a1 a0], b as [b3 b2 b1 b0]; simpl in *.
      repeat case_decide; subst; try lia; done. }
    split; [simpl; simpl in G; lia|].
    rewrite count_eq_bits_lcp.
    + by rewrite G.
    + rewrite !(flat_map_length_const _ 4) by (intros; apply nib_bits_length). simpl in *. lia.
    + intros E1%flat_map_nib_bits_inj. congruence.
Qed.

Lemma split_path_spec ovf p lf k v : k <> ln_key lf ->
  let c := common_prefix_bits_len k (ln_key lf) in
  length (p_siblings p) <= c ->
  compute_new_merkle_path_on_split H ovf p lf k v =
  Ok (SMProof (Some (LeafNode k (value_hash H v)))
        ([SMLeaf lf] ++ replicate (c - length (p_siblings p)) SMNull ++ p_siblings p)).
Proof.
  intros Hne c Hn. unfold compute_new_merkle_path_on_split.
  destruct (lcp_nibbles_bits (key_nibbles k) (key_nibbles (ln_key lf))) as (e & He & E1 & E2).
  { by rewrite !key_nibbles_length. } { by intros ?%key_nibbles_inj. }
  rewrite <- !key_bits_nibbles in E1. fold (common_prefix_bits_len k (ln_key lf)) in E1. fold c in E1.
  set (c' := lcp (key_nibbles k) (key_nibbles (ln_key lf))) in *.
  set (n := length (p_siblings p)) in *.
  assert (Hc : c < 256) by (by apply cpbl_ne).
  rewrite usub_ok by lia. cbn [mbind outcome_bind]. rewrite E2. cbn [mbind outcome_bind].
  set (d := (4 * (N.of_nat c' + 1) - N.of_nat n)%N).
  assert (Hd : ((4 - N.of_nat n mod 4) mod 4 + d / 4 * 4 + N.of_nat e = N.of_nat (c - n) + 4)%N).
  { unfold d. pose proof (N.div_mod (N.of_nat n) 4 ltac:(lia)) as D.
    pose proof (N.mod_lt (N.of_nat n) 4 ltac:(lia)) as D2.
    set (q := (N.of_nat n / 4)%N) in *. set (r := (N.of_nat n mod 4)%N) in *.
    destruct (N.eq_dec r 0) as [Hr|Hr].
    - rewrite Hr in *. replace ((4 - 0) mod 4)%N with 0%N by reflexivity.
      replace (4 * (N.of_nat c' + 1) - N.of_nat n)%N with ((N.of_nat c' + 1 - q) * 4)%N by lia.
      rewrite N.div_mul by lia. lia.
    - rewrite (N.mod_small (4 - r)) by lia.
      replace (4 * (N.of_nat c' + 1) - N.of_nat n)%N with ((4 - r) + (N.of_nat c' - q) * 4)%N by lia.
      rewrite N.div_add by lia. rewrite (N.div_small (4 - r)) by lia. lia. }
  set (pr := ((4 - N.of_nat n mod 4) mod 4)%N) in *.
  set (dl := (d / 4 * 4)%N) in *.
  assert (usize_mod = 18446744073709551616)%N as U by reflexivity.
  rewrite (uadd_ok _ pr dl) by lia. cbn [mbind outcome_bind].
  rewrite (uadd_ok _ (pr + dl)) by lia. cbn [mbind outcome_bind].
  rewrite usub_ok by lia. cbn [mbind outcome_bind].
  rewrite Hd. replace (N.of_nat (c - n) + 4 - 4)%N with (N.of_nat (c - n)) by lia.
  rewrite uadd_ok by lia. cbn [mbind outcome_bind].
  rewrite uadd_ok by lia. cbn [mbind outcome_bind].
  unfold vec_resize, vec_capacity_ok.
  destruct (N.leb_spec ((N.of_nat (c - n) + 1 + N.of_nat n) * 65) 9223372036854775807); [|lia].
  destruct (N.leb_spec ((N.of_nat (c - n) + 1) * 65) 9223372036854775807); [|lia].
  cbn [mbind outcome_bind assert_]. f_equal. f_equal.
  replace (N.to_nat (N.of_nat (c - n) + 1)) with (S (c - n)) by lia.
  simpl. rewrite resize_nil. done.
Qed.
(** with overflow checks, too many siblings panic *)
Lemma split_path_panic p lf k v : k <> ln_key lf ->
  common_prefix_bits_len k (ln_key lf) < length (p_siblings p) ->
  compute_new_merkle_path_on_split H true p lf k v = Panic.
Proof.
  intros Hne Hn. set (c := common_prefix_bits_len k (ln_key lf)) in *.
  unfold compute_new_merkle_path_on_split.
  destruct (lcp_nibbles_bits (key_nibbles k) (key_nibbles (ln_key lf))) as (e & He & E1 & E2).
  { by rewrite !key_nibbles_length. } { by intros ?%key_nibbles_inj. }
  rewrite <- !key_bits_nibbles in E1. fold (common_prefix_bits_len k (ln_key lf)) in E1. fold c in E1.
  set (c' := lcp (key_nibbles k) (key_nibbles (ln_key lf))) in *.
  set (n := length (p_siblings p)) in *.
  assert (Hc : c < 256) by (by apply cpbl_ne).
  destruct (N.le_gt_cases (N.of_nat n) (4 * (N.of_nat c' + 1))) as [Hl|Hl];
    [rewrite usub_ok by exact Hl | by rewrite (usub_panic _ _ Hl)].
  cbn [mbind outcome_bind]. rewrite E2. cbn [mbind outcome_bind].
  set (d := (4 * (N.of_nat c' + 1) - N.of_nat n)%N).
  assert (Hd : ((4 - N.of_nat n mod 4) mod 4 + d / 4 * 4 + N.of_nat e + N.of_nat n = N.of_nat c + 4)%N).
  { unfold d. pose proof (N.div_mod (N.of_nat n) 4 ltac:(lia)) as D.
    pose proof (N.mod_lt (N.of_nat n) 4 ltac:(lia)) as D2.
    set (q := (N.of_nat n / 4)%N) in *. set (r := (N.of_nat n mod 4)%N) in *.
    destruct (N.eq_dec r 0) as [Hr|Hr].
    - rewrite Hr in *. replace ((4 - 0) mod 4)%N with 0%N by reflexivity.
      replace (4 * (N.of_nat c' + 1) - N.of_nat n)%N with ((N.of_nat c' + 1 - q) * 4)%N by lia.
      rewrite N.div_mul by lia. lia.
    - rewrite (N.mod_small (4 - r)) by lia.
      replace (4 * (N.of_nat c' + 1) - N.of_nat n)%N with ((4 - r) + (N.of_nat c' - q) * 4)%N by lia.
      rewrite N.div_add by lia. rewrite (N.div_small (4 - r)) by lia. lia. }
  set (pr := ((4 - N.of_nat n mod 4) mod 4)%N) in *.
  set (dl := (d / 4 * 4)%N) in *.
  assert (usize_mod = 18446744073709551616)%N as U by reflexivity.
  rewrite (uadd_ok _ pr dl) by lia. cbn [mbind outcome_bind].
  rewrite (uadd_ok _ (pr + dl)) by lia. cbn [mbind outcome_bind].
  rewrite usub_panic by lia. done.
Qed.

(** ** check_compute_new_root *)
Definition step_key (k : key) (p : sm_proof) : key :=
  match p_leaf p with Some l => ln_key l | None => k end.
(** deletions must carry the leaf being deleted *)
Definition delete_has_leaf (p : sm_proof) (v : option value) : Prop :=
  v = None -> p_leaf p <> None.

Lemma ccnr_unfold_delete ovf p lf r k : p_leaf p = Some lf ->
  check_compute_new_root H ovf p r k None =
  (r0 ← root_hash H ovf p;
   _ ← ensure_ (bool_decide (r0 = r)) "old root"%string;
   _ ← ensure_ (bool_decide (k = ln_key lf)) "Key to remove doesn't match"%string;
   delete_root ovf (p_siblings p) k).
Proof. intros E. unfold check_compute_new_root. rewrite E. done. Qed.

Lemma ccnr_unfold_none ovf p r k x : p_leaf p = None ->
  check_compute_new_root H ovf p r k (Some x) =
  (_ ← (match verify_nonexistence H p r k with
        | Ok _ => Ok tt
        | Err _ => Err (EOther "nonexistence"%string)
        | Panic => Panic
        end);
   root_hash H ovf (SMProof (Some (LeafNode k (value_hash H x))) (p_siblings p))).
Proof. intros E. unfold check_compute_new_root. rewrite E. done. Qed.
Lemma ccnr_unfold_leaf ovf p lf r k x : p_leaf p = Some lf ->
  check_compute_new_root H ovf p r k (Some x) =
  (r0 ← root_hash H ovf p;
   _ ← ensure_ (bool_decide (r0 = r)) "old root"%string;
   if decide (k = ln_key lf) then
     root_hash H ovf (SMProof (Some (LeafNode k (value_hash H x))) (p_siblings p))
   else
     p' ← compute_new_merkle_path_on_split H ovf p lf k x;
     root_hash H ovf p').
Proof. intros E. unfold check_compute_new_root. rewrite E. done. Qed.
Lemma hproof_leaf M k n : p_leaf (hproof M k n) = hleaf M k n.
Proof. reflexivity. Qed.
Lemma hproof_sibs M k n : p_siblings (hproof M k n) = rev (hsibs M k n).
Proof. reflexivity. Qed.
Lemma value_hash_H x : value_hash H x = H x.
Proof. reflexivity. Qed.

(** an honest proof for the written key gives the new root *)
Lemma ccnr_honest_none ovf M k n x : term M k n -> under (kpre n k) M = ∅ -> M !! k = None ->
  hleaf M k n = None ->
  check_compute_new_root H ovf (hproof M k n) (ms [] M) k (Some x) = Ok (ms [] (<[ k := H x ]> M)).
Proof.
  intros T Eu C El. pose proof T as (Hn & _).
  pose proof (verify_complete M k n None T C) as V.
  rewrite ccnr_unfold_none by (by rewrite hproof_leaf).
  unfold verify_nonexistence. rewrite V, bind_Ok. rewrite hproof_sibs.
  rewrite root_hash_honest by done. f_equal. rewrite value_hash_H.
  apply set_at_end; [done|by left].
Qed.
Lemma root_hash_hproof ovf M k n k' h : term M k n -> hleaf M k n = Some (LeafNode k' h) -> kpre n k' = kpre n k ->
  root_hash H ovf (hproof M k n) = Ok (ms [] M).
Proof.
  intros T El C3. pose proof T as (Hn & _).
  rewrite <- (term_climb M k n T). unfold root_hash, hproof. cbn [p_leaf p_siblings]. rewrite El.
  cbn [unwrap mbind outcome_bind ln_key].
  rewrite rev_length, hsibs_length, usub_ok by lia. cbn [mbind outcome_bind].
  pose proof (rev_bits_skip_rev k' n Hn) as R1. pose proof (rev_bits_skip_rev k n Hn) as R2.
  rewrite R1, C3, <- R2, recompute_honest by done. reflexivity.
Qed.
Lemma ccnr_honest_same ovf M k n x h : term M k n -> under (kpre n k) M = {[ k := h ]} ->
  hleaf M k n = Some (LeafNode k h) ->
  check_compute_new_root H ovf (hproof M k n) (ms [] M) k (Some x) = Ok (ms [] (<[ k := H x ]> M)).
Proof.
  intros T Eu El. pose proof T as (Hn & _).
  rewrite (ccnr_unfold_leaf ovf _ (LeafNode k h)) by (by rewrite hproof_leaf).
  rewrite (root_hash_hproof ovf M k n k h T El eq_refl), bind_Ok.
  rewrite bool_decide_true by done. rewrite ensure_true, bind_Ok.
  rewrite decide_True by done. rewrite hproof_sibs, root_hash_honest by done. f_equal. rewrite value_hash_H.
  apply set_at_end; [done|by right; eauto].
Qed.
Lemma ccnr_honest_split ovf M k n x k' h : term M k n -> under (kpre n k) M = {[ k' := h ]} ->
  hleaf M k n = Some (LeafNode k' h) -> kpre n k' = kpre n k -> k <> k' ->
  check_compute_new_root H ovf (hproof M k n) (ms [] M) k (Some x) = Ok (ms [] (<[ k := H x ]> M)).
Proof.
  intros T Eu El C3 Hne. pose proof T as (Hn & _).
  rewrite (ccnr_unfold_leaf ovf _ (LeafNode k' h)) by (by rewrite hproof_leaf).
  rewrite (root_hash_hproof ovf M k n k' h T El C3), bind_Ok.
  rewrite bool_decide_true by done. rewrite ensure_true, bind_Ok.
  rewrite decide_False by done.
  assert (Hc : n <= common_prefix_bits_len k k') by (apply cpbl_kpre; done).
  pose proof (split_path_spec ovf (hproof M k n) (LeafNode k' h) k x Hne) as Sp. cbn zeta in Sp.
  cbn [ln_key] in Sp. rewrite hproof_sibs, rev_length, hsibs_length, value_hash_H in Sp.
  rewrite (Sp Hc), bind_Ok.
  destruct (split_sibs M k n k' h (H x) T Eu Hne) as (_ & Hc2 & Es).
  pose proof (split_root M k n k' h (H x) T Eu Hne) as Rt. cbn zeta in Rt.
  assert (Hr : [SMLeaf (LeafNode k' h)] ++ replicate (common_prefix_bits_len k k' - n) SMNull ++ rev (hsibs M k n)
     = rev (hsibs (<[k:=H x]> M) k (S (common_prefix_bits_len k k')))).
  { rewrite Es. rewrite !rev_app_distr, rev_repl. rewrite <- app_assoc. reflexivity. }
  rewrite Hr, root_hash_honest by (done || lia). f_equal. exact Rt.
Qed.
Lemma ccnr_honest_del ovf M k n h : term M k n -> under (kpre n k) M = {[ k := h ]} ->
  hleaf M k n = Some (LeafNode k h) ->
  check_compute_new_root H ovf (hproof M k n) (ms [] M) k None = Ok (ms [] (delete k M)).
Proof.
  intros T Eu El. pose proof T as (Hn & _).
  rewrite (ccnr_unfold_delete ovf _ (LeafNode k h)) by (by rewrite hproof_leaf).
  rewrite (root_hash_hproof ovf M k n k h T El eq_refl), bind_Ok.
  rewrite !bool_decide_true by done. rewrite !ensure_true, !bind_Ok.
  rewrite hproof_sibs. exact (delete_honest ovf M k n h T Eu).
Qed.
Lemma ccnr_honest ovf M k n v :
  term M k n -> (v = None -> is_Some (M !! k)) ->
  check_compute_new_root H ovf (hproof M k n) (ms [] M) k v = Ok (ms [] (apply_vh M k (H <$> v))).
Proof.
  intros T Hv.
  destruct (term_cases _ _ _ T) as [(Eu & El & C)|(k' & h & Eu & El & C2 & C3 & C4)].
  - destruct v as [x|]; [|destruct (Hv eq_refl); congruence].
    exact (ccnr_honest_none ovf M k n x T Eu C El).
  - destruct (decide (k = k')) as [<-|Hne].
    + destruct v as [x|].
      * exact (ccnr_honest_same ovf M k n x h T Eu El).
      * exact (ccnr_honest_del ovf M k n h T Eu El).
    + destruct v as [x|].
      * exact (ccnr_honest_split ovf M k n x k' h T Eu El C3 Hne).
      * destruct (Hv eq_refl) as [? Hv']. rewrite C4 in Hv' by done. done.
Qed.
Lemma root_hash_true_ok p r : root_hash H true p = Ok r -> exists l, p_leaf p = Some l /\
  length (p_siblings p) <= 256 /\
  fold_path H (opt_leaf_hash H (p_leaf p)) (p_siblings p)
    (rev_bits_skip (ln_key l) (256 - N.of_nat (length (p_siblings p)))) = r.
Proof.
  unfold root_hash. rewrite bind_ok. intros (l & E1 & E2). rewrite bind_ok in E2.
  destruct E2 as (n & E2 & E3). apply usub_true_ok in E2 as [E2 ->]. injection E3 as E3.
  exists l. destruct (p_leaf p); [|done]. injection E1 as ->. split; [done|]. split; [lia|done].
Qed.
(** conversely an accepted step was honest, so the new root is the right one *)
Lemma ccnr_sound qs M k p v r :
  (forall x, x ∈ ms_in H [] M -> x ∈ qs) -> (forall x, x ∈ proof_inputs (step_key k p) p -> x ∈ qs) ->
  delete_has_leaf p v ->
  check_compute_new_root H true p (ms [] M) k v = Ok r ->
  hash_broken H qs \/
  (term M k (length (p_siblings p)) /\ p = hproof M k (length (p_siblings p)) /\
   r = ms [] (apply_vh M k (H <$> v))).
Proof.
  intros Q1 Q2 Hd E.
  assert (G : hash_broken H qs \/ (term M k (length (p_siblings p)) /\ p = hproof M k (length (p_siblings p)) /\
     (v = None -> is_Some (M !! k)))).
  { unfold step_key in Q2. destruct (p_leaf p) as [lf|] eqn:El.
    - assert (E1 : exists r0, root_hash H true p = Ok r0 /\ r0 = ms [] M /\
         (v = None -> k = ln_key lf) /\
         (forall x, v = Some x -> k <> ln_key lf -> compute_new_merkle_path_on_split H true p lf k x <> Panic)).
      { destruct v as [x|].
        - unfold check_compute_new_root in E. rewrite El in E. rewrite bind_ok in E.
          destruct E as (r0 & E1 & E2). rewrite ensure_bind in E2. destruct E2 as [E2 E3].
          apply bool_decide_eq_true in E2. exists r0. split_and!; try done.
          intros x' [= <-] Hne. rewrite decide_False in E3 by done.
          intros Ep. rewrite Ep in E3. done.
        - rewrite (ccnr_unfold_delete _ _ lf) in E by done. rewrite bind_ok in E.
          destruct E as (r0 & E1 & E2). rewrite !ensure_bind in E2. destruct E2 as (E2 & E3 & E4).
          apply bool_decide_eq_true in E2, E3. exists r0. split_and!; done. }
      destruct E1 as (r0 & E1 & -> & E3 & E4).
      apply root_hash_true_ok in E1 as (l & E5 & E6 & E7). rewrite El in E5. injection E5 as <-.
      destruct (recompute_sound qs M (ln_key lf) p E6 Q1 Q2 E7) as [|[T Hp]]; [by left|]. right.
      set (n := length (p_siblings p)) in *.
      assert (Hle : p_leaf p = hleaf M (ln_key lf) n) by (by rewrite Hp at 1).
      destruct (term_cases _ _ _ T) as [(Eu & El2 & C)|(k' & h & Eu & El2 & C2 & C3 & C4)].
      { rewrite El2 in Hle. congruence. }
      rewrite El2, El in Hle. injection Hle as Hle. subst lf. simpl in *.
      assert (Hkk : kpre n k = kpre n k').
      { destruct v as [x|].
        - destruct (decide (k = k')) as [->|Hne]; [done|].
          apply cpbl_le. destruct (decide (n <= common_prefix_bits_len k k')); [done|].
          exfalso. apply (E4 x); [done|done|]. apply split_path_panic; [done|]. simpl. lia.
        - by rewrite E3. }
      assert (Hpre : forall i, i <= n -> kpre i k = kpre i k') by (intros i Hi; by apply (kpre_le i n)).
      assert (T' : term M k n).
      { destruct T as (T1 & T2 & T3). split_and!; [done|by rewrite Hkk|]. intros i Hi. rewrite Hpre by lia. by apply T3. }
      split; [done|]. split.
      + rewrite Hp at 1. unfold hproof, hleaf. rewrite Hkk. f_equal. f_equal.
        unfold SmtFacts.hsibs. apply map_ext_in. intros i [_ Hi]%in_seq. simpl in Hi. unfold hsib.
        assert (i < 256) by (destruct T; lia).
        rewrite Hpre by lia. rewrite (kpre_bit i n k k') by (done || lia). done.
      + intros Hv. rewrite (E3 Hv). eauto.
    - destruct v as [x|]; [|by destruct (Hd eq_refl)].
      unfold check_compute_new_root in E. rewrite El in E. rewrite bind_ok in E.
      destruct E as ([] & E1 & E2).
      destruct (verify_nonexistence H p (ms [] M) k) as [[]| |] eqn:V; try done.
      destruct (verify_sound qs M k p None Q1 Q2 V) as [|(T & Hp & _)]; [by left|]. right. done. }
  destruct G as [|(T & Hp & Hv)]; [by left|]. right. split; [done|]. split; [done|].
  pose proof (ccnr_honest true M k (length (p_siblings p)) v T Hv) as E2. rewrite <- Hp in E2. congruence.
Qed.
End facts.
