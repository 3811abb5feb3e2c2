(** Reading a stored canonical tree: get_with_proof, root hash, leaf count. *)
From Verif Require Import Base Spec NodeType ProofDef TreeCache Tree KeyFacts SmtFacts ProofFacts NodeFacts Canon CanonSib.
From Coq Require Import Lia.
Local Opaque Spec.smt.

Section read.
Context (H : list byte -> bytes32).
Implicit Types (M : gmap key vhash) (ver : list nibble -> version) (rd : reader).

(** the tree of [M] is readable with its root at version [v] *)
Definition stored rd M ver (v : version) : Prop :=
  rd_node rd (v, []) = Some (node_at H M ver []) /\
  forall p, 2 <= size (U p M) -> kids_ok H (rd_node rd) M ver p.

Lemma hsibs_app M k a b : a <= b -> hsibs H M k a ++ map (hsib H M k) (seq a (b - a)) = hsibs H M k b.
Proof. intros L. unfold hsibs. rewrite <- map_app, <- seq_app. do 2 f_equal. lia. Qed.

Lemma leaf_hproof M k n k' h : under (kpre n k) M = {[ k' := h ]} ->
  SMProof (Some (LeafNode k' h)) (rev (hsibs H M k n)) = hproof H M k n.
Proof. intros E. unfold hproof. by rewrite (hleaf_single _ _ _ k' h). Qed.
Lemma null_hproof M k n : under (kpre n k) M = ∅ -> SMProof None (rev (hsibs H M k n)) = hproof H M k n.
Proof. intros E. unfold hproof. by rewrite hleaf_empty. Qed.

Lemma gwp_leaf rd (m : gmap key value) k v rem top nk sibs n k' h :
  let M := H <$> m in
  (forall k, rd_value rd v k = m !! k) -> term M k n -> under (kpre n k) M = {[ k' := h ]} ->
  rd_node rd nk = Some (Leaf (LeafNode k' h)) -> sibs = hsibs H M k n ->
  get_with_proof_loop H rd k v rem top nk sibs = Ok (m !! k, hproof H M k n).
Proof.
  intros M Hv T E Rd ->.
  assert (G : get_with_proof_loop H rd k v rem top nk (hsibs H M k n) =
    (x ← (if decide (k' = k) then x ← rd_get_value rd v k'; Ok (Some x) else Ok None);
     Ok (x, SMProof (Some (LeafNode k' h)) (rev (hsibs H M k n))))).
  { destruct rem; cbn [get_with_proof_loop]; rewrite Rd; reflexivity. }
  rewrite G, (leaf_hproof M k n k' h E).
  destruct (term_cases M k n T) as [(Z & _)|(k2 & h2 & E2 & _ & Hk' & _ & Hne)].
  { rewrite E in Z. by apply single_ne in Z. }
  rewrite E in E2. apply (f_equal (fun m => m !! k')) in E2. rewrite lookup_singleton in E2.
  symmetry in E2. apply lookup_singleton_Some in E2 as [-> ->].
  case_decide as C.
  - subst k'. unfold M in Hk'. rewrite lookup_fmap in Hk'. unfold rd_get_value. rewrite Hv.
    destruct (m !! k) as [x|]; [|done]. reflexivity.
  - specialize (Hne C). unfold M in Hne. rewrite lookup_fmap in Hne. destruct (m !! k) as [x|]; [done|]. reflexivity.
Qed.

Lemma gwp_loop rd (m : gmap key value) ver k v :
  let M := H <$> m in
  (forall k, rd_value rd v k = m !! k) ->
  (forall p, 2 <= size (U p M) -> kids_ok H (rd_node rd) M ver p) ->
  forall (rem p : list nibble) (top : bool) (w : version) sibs,
  key_nibbles k = p ++ rem -> rd_node rd (w, p) = Some (node_at H M ver p) ->
  (forall i, i < 4 * length p -> 2 <= size (under (kpre i k) M)) -> sibs = hsibs H M k (4 * length p) ->
  (if top then p = [] else U p M <> ∅) ->
  exists n, term M k n /\ get_with_proof_loop H rd k v rem top (w, p) sibs = Ok (m !! k, hproof H M k n).
Proof.
  intros M Hv K. induction rem as [|x rem IH]; intros p top w sibs Ek Rd Many Es Htop.
  all: assert (Pp : p `prefix_of` key_nibbles k) by (rewrite Ek; by eexists).
  all: pose proof (kpre_bits p k Pp) as Ekp; pose proof (prefix_len_64 _ _ Pp) as Lp.
  all: destruct (size_cases (U p M)) as [E|[(k' & h & E)|Hm]].
  - destruct top; [|done]. subst p. simpl in Ek. pose proof (key_nibbles_length k) as L. rewrite Ek in L. done.
  - exists (4 * length p). assert (T : term M k (4 * length p)).
    { split; [lia|]. split; [|done]. rewrite Ekp. fold (U p M). rewrite E, map_size_singleton. lia. }
    split; [done|]. eapply gwp_leaf; [done|done| | |done].
    + rewrite Ekp. exact E.
    + rewrite Rd. by rewrite (node_at_leaf H _ _ _ k' h).
  - apply U_many_len in Hm. apply (f_equal length) in Ek. rewrite key_nibbles_length, app_length in Ek. simpl in Ek. lia.
  - destruct top; [|done]. subst p. rewrite U_nil in E. exists 0. split.
    { split; [lia|]. split; [|lia]. unfold kpre. simpl. rewrite under_nil, E, map_size_empty. lia. }
    cbn [get_with_proof_loop]. rewrite Rd, node_at_null by (by rewrite U_nil). cbn [ok_or]. rewrite bind_Ok.
    unfold hproof. rewrite hleaf_empty by (unfold kpre; simpl; by rewrite under_nil). 
    unfold M in E. apply fmap_empty_inv in E. by rewrite E, lookup_empty.
  - exists (4 * length p). assert (T : term M k (4 * length p)).
    { split; [lia|]. split; [|done]. rewrite Ekp. fold (U p M). rewrite E, map_size_singleton. lia. }
    split; [done|]. eapply gwp_leaf; [done|done| | |done].
    + rewrite Ekp. exact E.
    + rewrite Rd. by rewrite (node_at_leaf H _ _ _ k' h).
  - assert (Px : (p ++ [x]) `prefix_of` key_nibbles k) by (rewrite Ek; exists rem; by rewrite <- app_assoc).
    cbn [get_with_proof_loop]. rewrite Rd, node_at_internal by done. cbn [ok_or]. rewrite bind_Ok.
    unfold get_only_child_with_siblings.
    destruct (child_with_siblings_canon H (rd_node rd) M ver w p (size (U p M)) x k true Hm Px (K p Hm)) as (d & ck & Hd & SR & Ecs); [done|].
    rewrite Ecs, bind_Ok. cbn beta iota. destruct SR as (Hd2 & Hmd & C).
    assert (ManyD : forall i, i < d -> 2 <= size (under (kpre i k) M)).
    { intros i Hi. destruct (decide (i < 4 * length p)); [auto|]. apply Hmd. lia. }
    assert (Esd : sibs ++ map (hsib H M k) (seq (4 * length p) (d - 4 * length p)) = hsibs H M k d).
    { rewrite Es. apply hsibs_app. lia. }
    rewrite Esd.
    assert (L1 : length p < 64) by (by apply U_many_len in Hm).
    destruct C as [(Z & ->)|[(m' & S1 & Eu & -> & _)|(-> & Hm2 & ->)]].
    + exists d. assert (T : term M k d).
      { split; [lia|]. split; [rewrite Z, map_size_empty; lia|done]. }
      split; [done|]. rewrite (null_hproof M k d Z).
      destruct (term_cases M k d T) as [(_ & _ & Hn)|(k' & h & E & _)].
      * unfold M in Hn. rewrite lookup_fmap in Hn. by destruct (m !! k).
      * rewrite Z in E. symmetry in E. by apply single_ne in E.
    + exists d. assert (T : term M k d) by (split; [lia|]; split; [lia|done]).
      split; [done|]. destruct (size_one_inv _ S1) as (k' & h & E).
      assert (Ne : U (p ++ [m']) M <> ∅) by (apply size_ne; rewrite Eu; lia).
      eapply gwp_leaf; [done|done|exact E| |done].
      rewrite (K p Hm m' Ne). rewrite (node_at_leaf H _ _ _ k' h); [done|]. by rewrite Eu.
    + pose proof (U_many_ne _ _ Hm2) as Ne.
      apply IH.
      * rewrite Ek. by rewrite <- app_assoc.
      * apply (K p Hm x Ne).
      * rewrite app_length. simpl. intros i Hi. apply ManyD. lia.
      * rewrite app_length. simpl. f_equal. lia.
      * done.
Qed.
Lemma get_with_proof_canon rd (m : gmap key value) ver k v :
  stored rd (H <$> m) ver v -> (forall k, rd_value rd v k = m !! k) ->
  exists n, term (H <$> m) k n /\ get_with_proof H rd k v = Ok (m !! k, hproof H (H <$> m) k n).
Proof.
  intros [R K] Hv. unfold get_with_proof, nk_root. eapply gwp_loop; try done.
  intros i Hi. simpl in Hi. lia.
Qed.
Lemma get_root_hash_canon rd M ver v : stored rd M ver v -> get_root_hash H rd v = Ok (ms H [] M) /\
  get_root_hash_option H rd v = Ok (Some (ms H [] M)).
Proof.
  intros [R K]. unfold get_root_hash, get_root_hash_option, get_root_node_option, nk_root. rewrite R. cbn [ok_or].
  rewrite bind_Ok. rewrite node_hash_canon. done.
Qed.
Lemma node_leaf_count_canon M ver p : node_leaf_count (node_at H M ver p) = size (U p M).
Proof.
  destruct (size_cases (U p M)) as [E|[(k & h & E)|Hm]].
  - rewrite node_at_null by done. by rewrite E, map_size_empty.
  - rewrite (node_at_leaf H _ _ _ k h) by done. by rewrite E, map_size_singleton.
  - by rewrite node_at_internal by done.
Qed.
Lemma get_leaf_count_canon rd M ver v : stored rd M ver v -> get_leaf_count rd v = Ok (size M).
Proof.
  intros [R K]. unfold get_leaf_count, get_root_node_option, nk_root. rewrite R. cbn [ok_or]. rewrite bind_Ok.
  rewrite node_leaf_count_canon. by rewrite U_nil.
Qed.
End read.
