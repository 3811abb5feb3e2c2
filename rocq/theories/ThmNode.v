(** C48: the order of keys.  C52: hashing of one internal node, for every set of children. *)
From Verif Require Import Base Spec SpecOrder NodeType KeyFacts SmtFacts NodeFacts Canon KeyOrder OrderFacts ProofFacts ThmProof.
From Coq Require Import Lia.
Local Opaque Spec.smt.

(** *** C48 *)
(** Two keys compare as the first bit in which they differ; that bit's index is the common prefix length; *)
Theorem C48_order_by_first_bit (x y : key) : x <> y -> exists i, i < 256 /\ common_prefix_bits_len x y = i /\
  (forall j, j < i -> bit_at x j = bit_at y j) /\ bit_at x i <> bit_at y i /\ (key_lt x y <-> bit_at x i = false).
Proof.
  intros Ne. exists (common_prefix_bits_len x y). pose proof (cpbl_ne x y Ne) as L. pose proof (cpbl_bit_ne x y Ne) as B.
  set (i := common_prefix_bits_len x y) in *. assert (E : kpre i x = kpre i y) by by apply cpbl_le.
  split; [done|]. split; [done|]. split; [intros j Hj; eapply kpre_bit; [exact Hj|lia|done]|]. split; [done|].
  destruct (bit_at x i) eqn:Bx, (bit_at y i) eqn:By; try done.
  - split; [|done]. intros Lt. exfalso. eapply key_lt_irrefl, key_lt_trans; [exact Lt|]. by eapply (key_lt_bit y x i).
  - split; [done|]. intros _. by eapply (key_lt_bit x y i).
Qed.
(** get_nibble reads the nibble sequence *)
Lemma bytes_nibbles_lookup (l : list byte) : forall i, bytes_nibbles l !! i =
  match l !! (i / 2) with Some b => Some (if i mod 2 =? 0 then byte_hi b else byte_lo b) | None => None end.
Proof.
  induction l as [|a l IH]; intros i; [done|]. destruct i as [|[|i]]; [done|done|].
  change (bytes_nibbles (a :: l) !! S (S i)) with (bytes_nibbles l !! i). rewrite IH.
  replace (S (S i)) with (i + 1 * 2) by lia. rewrite Nat.div_add, Nat.mod_add by lia. rewrite Nat.add_1_r. done.
Qed.
Lemma get_nibble_lookup k i : get_nibble k i = unwrap (key_nibbles k !! i).
Proof. unfold get_nibble, key_nibbles. rewrite bytes_nibbles_lookup. destruct (b32 k !! (i / 2)); done. Qed.
Lemma bits_take l : forall i, take (4 * i) (bits l) = bits (take i l).
Proof.
  induction l as [|n l IH]; intros i; [by rewrite bits_nil, !take_nil|]. destruct i as [|i]; [done|]. rewrite firstn_cons. cbn [bits flat_map]. fold (bits l). fold (bits (take i l)).
  rewrite <- IH. rewrite take_app_ge by (rewrite nib_bits_length; lia). rewrite nib_bits_length. do 2 f_equal. lia.
Qed.
Lemma kpre_nibbles k i : kpre (4 * i) k = bits (take i (key_nibbles k)).
Proof. unfold kpre. rewrite key_bits_nibbles. apply bits_take. Qed.
Lemma nibs_eq_kpre x y i : take i (key_nibbles x) = take i (key_nibbles y) <-> kpre (4 * i) x = kpre (4 * i) y.
Proof. rewrite !kpre_nibbles. split; [by intros ->|apply bits_inj]. Qed.
(** ... and as the first nibble in which they differ, whose index is the common prefix length in nibbles; *)
Theorem C48_order_by_first_nibble (x y : key) : x <> y -> exists i n m, i < 64 /\ common_prefix_nibbles_len x y = i /\
  (forall j, j < i -> get_nibble x j = get_nibble y j) /\ get_nibble x i = Ok n /\ get_nibble y i = Ok m /\ n <> m /\
  (key_lt x y <-> (nib_to_N n < nib_to_N m)%N).
Proof.
  intros Ne. set (c := common_prefix_bits_len x y). pose proof (cpbl_ne x y Ne) as Lc. fold c in Lc. unfold common_prefix_nibbles_len. fold c.
  pose proof (Nat.div_mod c 4 ltac:(lia)) as Dm. pose proof (Nat.mod_upper_bound c 4 ltac:(lia)) as Mb. set (i := c / 4) in *.
  assert (Li : i < 64) by lia.
  assert (E : take i (key_nibbles x) = take i (key_nibbles y)) by (apply nibs_eq_kpre, cpbl_le; fold c; lia).
  destruct (lookup_lt_is_Some_2 (key_nibbles x) i) as [n En]; [by rewrite key_nibbles_length|].
  destruct (lookup_lt_is_Some_2 (key_nibbles y) i) as [m Em]; [by rewrite key_nibbles_length|].
  assert (Nm : n <> m).
  { intros ->. assert (X : take (S i) (key_nibbles x) = take (S i) (key_nibbles y)) by (by rewrite !(take_S_r _ _ m), E by done).
    apply nibs_eq_kpre in X. apply cpbl_kpre in X; [fold c in X; lia|lia]. }
  assert (Px : (take i (key_nibbles x) ++ [n]) `prefix_of` key_nibbles x) by (rewrite <- take_S_r by done; eexists; symmetry; apply take_drop).
  assert (Py : (take i (key_nibbles x) ++ [m]) `prefix_of` key_nibbles y) by (rewrite E, <- take_S_r by done; eexists; symmetry; apply take_drop).
  exists i, n, m. split; [done|]. split; [done|]. split.
  { intros j Hj. rewrite !get_nibble_lookup. f_equal. by rewrite <- (lookup_take (key_nibbles x) i), E, lookup_take. }
  rewrite !get_nibble_lookup, En, Em. split; [done|]. split; [done|]. split; [done|]. split.
  - intros Lt. destruct (N.lt_trichotomy (nib_to_N n) (nib_to_N m)) as [?|[?%nib_to_N_inj|L]]; [done|done|].
    exfalso. eapply key_lt_irrefl, key_lt_trans; [exact Lt|]. by eapply key_lt_nib.
  - intros L. by eapply key_lt_nib.
Qed.
(** ... a strict total order. *)
Theorem C48_strict_total_order (x y z : key) : ~ key_lt x x /\ (key_lt x y -> key_lt y z -> key_lt x z) /\ (key_lt x y \/ x = y \/ key_lt y x).
Proof. split; [apply key_lt_irrefl|]. split; [apply key_lt_trans|apply key_lt_total]. Qed.
Example C48_case : key_lt K00 K80 /\ key_lt K80 KC0 /\ common_prefix_bits_len K80 KC0 = 1 /\ common_prefix_nibbles_len K80 KC0 = 0.
Proof. vm_compute. done. Qed.

(** *** C52 *)
Section c52.
Context (H : list byte -> bytes32).
(** The 16 child slots of a node in order. *)
Definition all_slots (i : internal_node) : list (option child) := map (fun n => in_children i !! n) all_nibbles.
(** The hash of a node is [slots_hash] (NodeFacts.v) of its slots: the placeholder for no child, the child's own hash for
    a range whose only child is a leaf and for a single slot, else the hash of the two halves.  It never fails. *)
Theorem C52_internal_hash (i : internal_node) : in_hash H i = Ok (slots_hash H 4 (all_slots i)).
Proof. rewrite in_hash_slots. unfold slots, all_slots. by rewrite nibs_nil. Qed.

(** A stored child: a leaf child with that leaf's hash, or a well-formed internal node with its hash. *)
Definition child_stored (rd : nodekey -> option node) (nk : nodekey) (i : internal_node) : Prop :=
  forall n c, in_children i !! n = Some c ->
    (exists l, rd (gen_child nk (c_version c) n) = Some (Leaf l) /\ c_is_leaf c = true /\ c_hash c = leaf_hash H l) \/
    (exists i', rd (gen_child nk (c_version c) n) = Some (Internal i') /\ c_is_leaf c = false /\
       internal_new (in_children i') = Ok i' /\ in_hash H i' = Ok (c_hash c)).
(** Recombining a hash with sibling hashes, top first, along the bits [b]. *)
Fixpoint recombine (b : list bool) (sibs : list hash) (x : hash) : hash :=
  match b, sibs with
  | c :: b', s :: sibs' => let y := recombine b' sibs' x in if c then internal_hash H s y else internal_hash H y s
  | _, _ => x
  end.

(** a range that is neither empty nor a lone leaf hashes its halves *)
Definition lone (ch : children) (r : list bool) : Prop := exists n c, pres ch r = [n] /\ ch !! n = Some c /\ c_is_leaf c = true.
Lemma omap_pres_len ch r : length (omap (fun n => ch !! n) (pres ch r)) = length (pres ch r).
Proof.
  assert (G : forall l, (forall n, n ∈ l -> is_Some (ch !! n)) -> length (omap (fun n => ch !! n) l) = length l).
  { induction l as [|n l IH]; intros F; [done|]. cbn [omap list_omap]. destruct (F n) as [c ->]; [by left|]. cbn [length]. rewrite IH; [done|]. intros; apply F; by right. }
  apply G. intros n Hn. by apply elem_of_pres in Hn as [_ ?].
Qed.
Lemma slots_hash_split ch r h : length r + S h = 4 -> pres ch r <> [] -> ~ lone ch r ->
  slots_hash H (S h) (slots ch r) = internal_hash H (slots_hash H h (slots ch (r ++ [false]))) (slots_hash H h (slots ch (r ++ [true]))).
Proof.
  intros L Ne Nl. destruct (slots_halves ch r h L) as [E1 E2]. cbn [slots_hash]. rewrite E1, E2, slots_pres.
  destruct (omap _ (pres ch r)) as [|c [|c' l]] eqn:E; [..|done].
  - pose proof (omap_pres_len ch r) as Ln. rewrite E in Ln. destruct (pres ch r); done.
  - pose proof (omap_pres_len ch r) as Ln. rewrite E in Ln. destruct (pres ch r) as [|n [|? ?]] eqn:Ep; try done.
    cbn [omap list_omap] in E. destruct (ch !! n) as [c'|] eqn:Ec; [|done]. injection E as ->. cbn [Nat.eqb]. rewrite orb_false_r.
    destruct (c_is_leaf c) eqn:El; [|done]. destruct Nl. by exists n, c.
Qed.
Lemma slots_hash_lone ch r h n c : pres ch r = [n] -> ch !! n = Some c -> c_is_leaf c = true \/ h = 0 -> slots_hash H h (slots ch r) = c_hash c.
Proof.
  intros E Ec El. destruct h; cbn [slots_hash]; rewrite slots_pres, E; cbn [omap list_omap]; rewrite Ec.
  - by rewrite orb_true_r.
  - destruct El as [->|]; [|lia]. done.
Qed.
Lemma slots_hash_empty ch r h : pres ch r = [] -> slots_hash H h (slots ch r) = SPARSE_MERKLE_PLACEHOLDER_HASH.
Proof. intros E. destruct h; cbn [slots_hash]; rewrite slots_pres, E; done. Qed.
Local Opaque slots_hash slots.
Lemma internal_new_wf ch i : internal_new ch = Ok i -> pres ch [] <> [] /\ ~ lone ch [].
Proof.
  unfold internal_new, num_children, children_values. intros E.
  assert (P : map fst (children_iter ch) = pres ch [] /\ map snd (children_iter ch) = omap (fun n => ch !! n) (pres ch [])).
  { unfold children_iter, pres. rewrite nibs_nil. generalize all_nibbles as l. induction l as [|n l [IH1 IH2]]; [done|]. rewrite filter_cons. cbn [omap list_omap].
    destruct (ch !! n) as [c|] eqn:Ec; cbn.
    - rewrite decide_True by eauto. cbn [omap list_omap map fst snd]. rewrite Ec, IH1, IH2. done.
    - rewrite decide_False by (intros [? ?]; done). by rewrite IH1, IH2. }
  destruct P as [P1 P2]. rewrite P2 in E. pose proof (f_equal (@length _) P1) as Ln. rewrite map_length in Ln. rewrite Ln in E. split.
  - intros Z. rewrite Z in E. cbn [length Nat.eqb negb assert_] in E. discriminate E.
  - intros (n & c & En & Ec & El). rewrite En in E. cbn [length omap list_omap] in E. rewrite Ec in E. cbn [Nat.eqb negb assert_] in E. rewrite bind_Ok, El in E. cbn [negb assert_] in E. discriminate E.
Qed.
Lemma build_sibling_hash rd nk i r h bm : length r + h = 4 -> bm_ok bm (in_children i) [] -> child_stored rd nk i ->
  exists s, build_sibling H rd nk i (pstart r) h bm = Ok s /\ sm_hash H s = slots_hash H h (slots (in_children i) r).
Proof.
  intros L B K. set (ch := in_children i). pose proof (bm_ok_prefix bm ch r B) as Br.
  destruct (range_spec r h bm ch L Br) as (rb & E & S1 & S2 & B' & P & R). unfold build_sibling. rewrite E, bind_Ok.
  rewrite (pres_empty_bit rb ch r) by done. destruct (pres ch r) as [|n l] eqn:Ep.
  { rewrite bool_decide_true by done. eexists. split; [done|]. by rewrite slots_hash_empty. }
  rewrite bool_decide_false by done. destruct (pres_some _ _ _ _ Ep) as [c Ec].
  assert (Rd : l = [] -> c_is_leaf c = true \/ h = 0 -> exists s, (n0 ← nib_from_u8 (trailing_zeros rb.1); c0 ← unwrap (in_child i n0); nd ← unwrap (rd (gen_child nk (c_version c0) n0));
       match nd with Internal i' => sm_internal_from H i' | Leaf l0 => Ok (SMLeaf l0) | Null => Panic end) = Ok s /\ sm_hash H s = slots_hash H h (slots ch r)).
  { intros -> El. rewrite (slots_hash_lone ch r h n c) by done. rewrite trailing_zeros_set16, P, nib_from_u8_nib, bind_Ok.
    unfold in_child. fold ch. rewrite Ec. cbn [unwrap]. rewrite bind_Ok. destruct (K n c Ec) as [(lf & -> & _ & ->)|(i' & -> & _ & Wf & Hh)]; cbn [unwrap]; rewrite bind_Ok.
    - eexists. split; done.
    - rewrite sm_internal_from_slots. eexists. split; [done|]. cbn [sm_hash]. apply internal_new_wf in Wf as [W1 W2].
      rewrite in_hash_slots in Hh. injection Hh as <-. symmetry. by rewrite slots_hash_split. }
  unfold has_only_child. rewrite count_ones_set16, P. destruct h as [|h].
  { cbn [Nat.eqb orb]. apply Rd; [|by right]. destruct (nibs_4' r) as [m ->]; [lia|]. unfold pres in Ep. rewrite nibs_4, filter_cons, filter_nil in Ep. case_decide; [by injection Ep|done]. }
  cbn [Nat.eqb orb]. destruct l as [|n2 l].
  - cbn [length Nat.eqb andb]. rewrite (rl_nonzero_single rb ch r n c R Ep Ec). destruct (c_is_leaf c) eqn:El; [apply Rd; [done|by left]|].
    eexists. split; [rewrite <- (pstart_true r h L); rewrite <- (pstart_false r h L) at 1;
    rewrite (merkle_hash_slots H _ h (r ++ [false]) rb); [|rewrite app_length; simpl; lia|apply bm_ok_sub; [lia|done]]; rewrite bind_Ok;
    rewrite (merkle_hash_slots H _ h (r ++ [true]) rb); [|rewrite app_length; simpl; lia|apply bm_ok_sub; [lia|done]]; rewrite bind_Ok; reflexivity|]. cbn [sm_hash]. symmetry. fold ch. rewrite slots_hash_split; [done|done|by rewrite Ep|].
    intros (n' & c' & E1 & E2 & E3). rewrite Ep in E1. injection E1 as <-. congruence.
  - cbn [length Nat.eqb andb].
    eexists. split; [rewrite <- (pstart_true r h L); rewrite <- (pstart_false r h L) at 1;
    rewrite (merkle_hash_slots H _ h (r ++ [false]) rb); [|rewrite app_length; simpl; lia|apply bm_ok_sub; [lia|done]]; rewrite bind_Ok;
    rewrite (merkle_hash_slots H _ h (r ++ [true]) rb); [|rewrite app_length; simpl; lia|apply bm_ok_sub; [lia|done]]; rewrite bind_Ok; reflexivity|]. cbn [sm_hash]. symmetry. fold ch. rewrite slots_hash_split; [done|done|by rewrite Ep|].
    intros (n' & c' & E1 & _). rewrite Ep in E1. done.
Qed.
Definition found (nk : nodekey) (i : internal_node) (n : nibble) (only : bool) (ck : option nodekey) (x : hash) : Prop :=
  match ck with
  | None => x = SPARSE_MERKLE_PLACEHOLDER_HASH /\ in_children i !! n = None
  | Some k => exists m c, in_children i !! m = Some c /\ k = gen_child nk (c_version c) m /\ x = c_hash c /\ (m = n \/ (only = true /\ c_is_leaf c = true /\ in_children i !! n = None))
  end.
Lemma siblings_loop_hash rd nk i n only bm : bm_ok bm (in_children i) [] -> child_stored rd nk i -> only = true \/ is_Some (in_children i !! n) ->
  forall h sibs, h < 4 -> (pres (in_children i) (take (3 - h) (nib_bits n)) <> [] /\ ~ lone (in_children i) (take (3 - h) (nib_bits n))) ->
  exists ck ss x, siblings_loop H rd nk i n only bm (S h) sibs = Ok (ck, sibs ++ ss) /\ 1 <= length ss <= S h /\ found nk i n only ck x /\
    slots_hash H (S h) (slots (in_children i) (take (3 - h) (nib_bits n))) = recombine (take (length ss) (drop (3 - h) (nib_bits n))) (map (sm_hash H) ss) x.
Proof.
  intros B K Hn. set (ch := in_children i) in *.
  assert (Nb : length (nib_bits n) = 4) by apply nib_bits_length.
  intros h. induction h as [h IH] using lt_wf_ind. intros sibs Lh [Ne Nl]. set (r := take (3 - h) (nib_bits n)) in *.
  assert (Lr : length r + S h = 4) by (unfold r; rewrite take_length; lia).
  destruct (lookup_lt_is_Some_2 (nib_bits n) (3 - h)) as [b Eb]; [lia|].
  assert (Er : take (4 - h) (nib_bits n) = r ++ [b]) by (unfold r; replace (4 - h) with (S (3 - h)) by lia; by apply take_S_r).
  assert (Ed : drop (3 - h) (nib_bits n) = b :: drop (4 - h) (nib_bits n)) by (replace (4 - h) with (S (3 - h)) by lia; by apply drop_S).
  assert (Lc : length (r ++ [b]) + h = 4) by (rewrite app_length; cbn; lia).
  assert (Nr : n ∈ nibs (r ++ [b])) by (apply elem_of_nibs; rewrite <- Er; f_equal; rewrite take_length; lia).
  cbn [siblings_loop]. rewrite sibling_half_start_spec, child_half_start_spec, Er by done. fold r. rewrite (nth_lookup_Some _ _ _ _ Eb).
  destruct (build_sibling_hash rd nk i (r ++ [negb b]) h bm) as (s & -> & Hs); [rewrite app_length; cbn; lia|done|done|]. rewrite bind_Ok. fold ch in Hs.
  rewrite (slots_hash_split ch r h Lr Ne Nl).
  assert (Top : forall y, slots_hash H h (slots ch (r ++ [b])) = y -> internal_hash H (slots_hash H h (slots ch (r ++ [false]))) (slots_hash H h (slots ch (r ++ [true]))) =
     if b then internal_hash H (sm_hash H s) y else internal_hash H y (sm_hash H s)) by (intros y <-; rewrite Hs; destruct b; done).
  destruct (range_spec (r ++ [b]) h bm ch Lc) as (rb & -> & S1 & S2 & B' & P & R); [by apply bm_ok_prefix|]. rewrite bind_Ok.
  rewrite (pres_empty_bit rb ch (r ++ [b])) by done.
  destruct (pres ch (r ++ [b])) as [|m l] eqn:Ep.
  { rewrite bool_decide_true by done. exists None, [s], SPARSE_MERKLE_PLACEHOLDER_HASH. split; [done|]. split; [cbn; lia|]. split.
    - split; [done|]. destruct (ch !! n) eqn:En; [|done]. assert (X : n ∈ pres ch (r ++ [b])) by (apply elem_of_pres; split; [done|by rewrite En]). rewrite Ep in X. by apply elem_of_nil in X.
    - rewrite (Top SPARSE_MERKLE_PLACEHOLDER_HASH) by (by apply slots_hash_empty). rewrite Ed. done. }
  rewrite bool_decide_false by done. destruct (pres_some _ _ _ _ Ep) as [c Ec].
  assert (Nn : is_Some (ch !! n) -> l = [] -> m = n).
  { intros In ->. assert (X : n ∈ pres ch (r ++ [b])) by (by apply elem_of_pres). rewrite Ep in X. by apply elem_of_list_singleton in X. }
  assert (L0 : h = 0 -> l = [] /\ m = n).
  { intros ->. unfold pres in Ep. rewrite <- Er in Ep. change (4 - 0) with 4 in Ep. rewrite take_ge in Ep by lia. rewrite nibs_4, filter_cons, filter_nil in Ep.
    case_decide; [|done]. injection Ep as -> <-. done. }
  assert (Done : l = [] -> c_is_leaf c = true \/ h = 0 -> slots_hash H h (slots ch (r ++ [b])) = c_hash c) by (intros ->; by apply (slots_hash_lone _ _ _ m)).
  assert (Fin : only && has_only_child h rb.1 rb.2 = true -> exists ck ss x, (m0 ← nib_from_u8 (trailing_zeros rb.1); c0 ← unwrap (in_child i m0); Ok (Some (gen_child nk (c_version c0) m0), sibs ++ [s])) = Ok (ck, sibs ++ ss) /\
     1 <= length ss <= S h /\ found nk i n only ck x /\
     internal_hash H (slots_hash H h (slots ch (r ++ [false]))) (slots_hash H h (slots ch (r ++ [true]))) = recombine (take (length ss) (drop (3 - h) (nib_bits n))) (map (sm_hash H) ss) x).
  { intros [-> Ho]%andb_true_iff. rewrite trailing_zeros_set16, P, nib_from_u8_nib, bind_Ok. unfold in_child. fold ch. rewrite Ec. cbn [unwrap]. rewrite bind_Ok.
    assert (X : l = [] /\ (c_is_leaf c = true \/ h = 0)).
    { unfold has_only_child in Ho. rewrite count_ones_set16, P in Ho. destruct (Nat.eqb_spec h 0) as [Z|Z]; [split; [by apply L0|by right]|]. cbn [orb] in Ho.
      destruct l; [|done]. split; [done|]. left. cbn in Ho. by rewrite (rl_nonzero_single rb ch _ m c R Ep Ec) in Ho. }
    destruct X as [X1 X2]. exists (Some (gen_child nk (c_version c) m)), [s], (c_hash c). split; [done|]. split; [cbn; lia|]. split.
    - exists m, c. split; [done|]. split; [done|]. split; [done|]. destruct (ch !! n) eqn:En; [left; apply Nn; [by eexists|done]|].
      destruct X2 as [X2|X2]; [by right|left; by apply L0].
    - rewrite (Top (c_hash c)) by (by apply Done). rewrite Ed. done. }
  destruct (only && has_only_child h rb.1 rb.2) eqn:T1; [by apply Fin|]. clear Fin.
  destruct (negb only && has_child h rb.1 (N.shiftl 1 (nib_to_N n)) rb.2) eqn:T2.
  { apply andb_true_iff in T2 as [T2 T3]. destruct only; [done|]. destruct Hn as [|In]; [done|].
    unfold has_child in T3. unfold in_child. fold ch. destruct In as [cn En]. rewrite En. cbn [unwrap]. rewrite bind_Ok.
    assert (X : m = n /\ l = [] /\ (c_is_leaf c = true \/ h = 0)).
    { destruct (Nat.eqb_spec h 0) as [Z|Z]; [destruct (L0 Z); split; [done|]; split; [done|by right]|]. cbn [orb] in T3. apply andb_true_iff in T3 as [T3 T4].
      apply N.eqb_eq, single_bit_set16 in T3; [|done]. rewrite P in T3. injection T3 as -> ->. split; [done|]. split; [done|]. left. by rewrite (rl_nonzero_single rb ch _ n c R Ep Ec) in T4. }
    destruct X as (-> & X1 & X2). rewrite Ec in En. injection En as <-.
    exists (Some (gen_child nk (c_version c) n)), [s], (c_hash c). split; [done|]. split; [cbn; lia|]. split; [exists n, c; auto|].
    rewrite (Top (c_hash c)) by (by apply Done). rewrite Ed. done. }
  (* the range is split further *)
  destruct h as [|h].
  { exfalso. destruct (L0 eq_refl) as [-> ->]. unfold has_only_child, has_child in *. cbn in T1, T2. destruct only; done. }
  destruct (IH h ltac:(lia) (sibs ++ [s])) as (ck & ss & x & E1 & E2 & E3 & E4); [lia| |].
  { replace (3 - h) with (4 - S h) by lia. rewrite Er, Ep. split; [done|]. intros (n' & c' & F1 & F2 & F3). rewrite Ep in F1. injection F1 as <- ->. rewrite Ec in F2. injection F2 as <-.
    unfold has_only_child, has_child in *. rewrite count_ones_set16, P in T1. rewrite (rl_nonzero_single rb ch _ m c R Ep Ec), F3 in T1, T2. cbn in T1, T2. rewrite andb_true_r in T1. subst only.
    destruct Hn as [|In]; [done|]. rewrite (Nn In eq_refl) in *. rewrite (proj2 (single_bit_set16 rb.1 n S1)) in T2 by done. by rewrite N.eqb_refl in T2. }
  exists ck, (s :: ss), x. rewrite E1. split; [by rewrite <- app_assoc|]. split; [cbn; lia|]. split; [done|].
  replace (3 - h) with (4 - S h) in E4 by lia. rewrite Er in E4. rewrite (Top _ E4). rewrite Ed. done.
Qed.
(** The siblings returned for a child, recombined with what is found along the bits of the nibble, give the hash of the node. *)
Theorem C52_siblings_recombine rd nk i n only : internal_new (in_children i) = Ok i -> child_stored rd nk i ->
  only = true \/ is_Some (in_children i !! n) ->
  exists ck sibs x, get_child_with_siblings_helper H rd nk i n only = Ok (ck, sibs) /\ 1 <= length sibs <= 4 /\ found nk i n only ck x /\
    in_hash H i = Ok (recombine (take (length sibs) (nib_bits n)) (map (sm_hash H) sibs) x).
Proof.
  intros Wf K Hn. apply internal_new_wf in Wf. unfold get_child_with_siblings_helper. destruct (generate_bitmaps_spec i) as (bm & -> & B). rewrite bind_Ok.
  destruct (siblings_loop_hash rd nk i n only bm B K Hn 3 []) as (ck & ss & x & E1 & E2 & E3 & E4); [lia|done|].
  exists ck, ss, x. split; [done|]. split; [done|]. split; [done|]. rewrite in_hash_slots. by f_equal.
Qed.
(** a node with two leaf children meets the hypotheses *)
Definition two_leaves : internal_node :=
  mkInternal {[ nib_of_N 0 := Child (leaf_hash H (LeafNode K00 K80)) 3 NTLeaf; nib_of_N 8 := Child (leaf_hash H (LeafNode K80 K00)) 5 NTLeaf ]} 2.
Definition two_reader (nk : nodekey) : option node :=
  if decide (nk = (3%N, [nib_of_N 0])) then Some (Leaf (LeafNode K00 K80))
  else if decide (nk = (5%N, [nib_of_N 8])) then Some (Leaf (LeafNode K80 K00)) else None.
Example C52_case : internal_new (in_children two_leaves) = Ok two_leaves /\ child_stored two_reader (5%N, []) two_leaves /\
  is_Some (in_children two_leaves !! nib_of_N 0).
Proof.
  split; [reflexivity|]. split; [|by eexists]. intros n c. cbn [two_leaves in_children]. intros [[<- <-]|[_ [<- <-]%lookup_singleton_Some]]%lookup_insert_Some; left.
  - exists (LeafNode K00 K80). done.
  - exists (LeafNode K80 K00). done.
Qed.
End c52.
