(** C45: Borsh round trips, and C55: what deserialisation does not check. *)
From Verif Require Import Base NodeType NodeFacts ProofDef TreeCache NibblePath NibbleFacts ChildrenArr ThmChildren KeyOrder Mock Codec Borsh.
From Coq Require Import Lia.
Local Open Scope N_scope.

Record lawful {A} (cmp : A -> A -> comparison) : Prop := {
  l_eq : forall x y, cmp x y = Eq <-> x = y;
  l_anti : forall x y, cmp y x = CompOpp (cmp x y);
  l_trans : forall x y z, cmp x y = Lt -> cmp y z = Lt -> cmp x z = Lt }.
Lemma pair_lawful {A B} (ca : A -> A -> comparison) (cb : B -> B -> comparison) : lawful ca -> lawful cb -> lawful (pair_cmp ca cb).
Proof.
  intros LA LB. split.
  - intros [a b] [a' b']. unfold pair_cmp. cbn. destruct (ca a a') eqn:E.
    + apply (l_eq _ LA) in E as ->. rewrite (l_eq _ LB). split; [by intros ->|by intros [= ->]].
    + split; [done|]. intros [= <- <-]. rewrite (proj2 (l_eq _ LA _ _) eq_refl) in E. done.
    + split; [done|]. intros [= <- <-]. rewrite (proj2 (l_eq _ LA _ _) eq_refl) in E. done.
  - intros [a b] [a' b']. unfold pair_cmp. cbn. rewrite (l_anti _ LA). destruct (ca a a'); cbn; [apply (l_anti _ LB)|done|done].
  - intros [a b] [a' b'] [a2 b2]. unfold pair_cmp. cbn. destruct (ca a a') eqn:E1; try done.
    + apply (l_eq _ LA) in E1 as ->. destruct (ca a' a2); try done. apply (l_trans _ LB).
    + intros _. destruct (ca a' a2) eqn:E2; try done.
      * apply (l_eq _ LA) in E2 as ->. by rewrite E1.
      * intros _. by rewrite (l_trans _ LA _ _ _ E1 E2).
Qed.
Lemma N_lawful : lawful N.compare.
Proof. split; [apply N.compare_eq_iff|intros; apply N.compare_antisym|intros x y z; rewrite !N.compare_lt_iff; lia]. Qed.
Lemma nat_lawful : lawful Nat.compare.
Proof. split; [apply Nat.compare_eq_iff|intros; apply Nat.compare_antisym|intros x y z; rewrite !Nat.compare_lt_iff; lia]. Qed.
Lemma bytes_lawful : lawful bytes_compare.
Proof. split; [apply bytes_compare_eq|intros; apply bytes_compare_antisym|apply bytes_lt_trans]. Qed.
Lemma key_lawful : lawful key_compare.
Proof. split; [apply key_compare_eq|intros; apply key_compare_antisym|intros x y z; apply key_lt_trans]. Qed.
Lemma np_lawful : lawful np_compare.
Proof.
  pose proof (pair_lawful _ _ nat_lawful bytes_lawful) as P.
  assert (E : forall p q, np_compare p q = pair_cmp Nat.compare bytes_compare (np_num p, np_bytes p) (np_num q, np_bytes q)) by done.
  split.
  - intros p q. rewrite E, (l_eq _ P). destruct p, q. cbn. split; congruence.
  - intros p q. rewrite !E. apply (l_anti _ P).
  - intros p q r. rewrite !E. apply (l_trans _ P).
Qed.

(** every codec is correct *)
Ltac conv := apply conv_good; [|by intros [] | by intros [] []].
Lemma u64_good : good c_u64. Proof. apply uint_good. Qed.
Lemma usize_good : good c_usize.
Proof. apply conv_good; [apply uint_good|intros n ? _; by rewrite Nat2N.id|intros x y [= <-]; apply N2Nat.id]. Qed.
Lemma b32_good : good c_b32.
Proof.
  apply conv_good; [apply bytes_good|intros y ? _; apply to_bytes32_b32|]. intros x y. unfold to_bytes32. destruct (bool_dec _ _); [|done]. by intros [= <-].
Qed.
Lemma byte_good : good c_byte.
Proof. apply conv_good; [apply bytes_good|done|]. intros [|b [|? ?]] y; try done. by intros [= <-]. Qed.
Lemma bytevec_good : good c_bytevec. Proof. apply vec_good, byte_good. Qed.
Lemma leaf_good : good c_leaf.
Proof. apply conv_good; [apply pair_good; apply b32_good|by intros []|]. intros [] y [= <-]. done. Qed.
Lemma smnode_good : good c_smnode.
Proof.
  apply conv_good; [apply enum3_good; [apply unit_good|apply pair_good; apply b32_good|apply leaf_good]|by intros []|].
  intros [[]|[[]|]] y [= <-]; done.
Qed.
Lemma proof_good : good c_proof.
Proof.
  apply conv_good; [apply pair_good; [apply option_good, leaf_good|apply pair_good; [apply vec_good, smnode_good|apply unit_good]]|by intros []|].
  intros [? [? []]] y [= <-]; done.
Qed.
Lemma update_proof_good : good c_update_proof. Proof. apply vec_good, proof_good. Qed.
Lemma range_proof_good : good c_range_proof.
Proof.
  apply conv_good; [apply pair_good; [apply vec_good, smnode_good|apply unit_good]|by intros []|]. intros [? []] y [= <-]; done.
Qed.
Lemma npath_good : good c_npath.
Proof. apply conv_good; [apply pair_good; [apply usize_good|apply bytevec_good]|by intros []|]. intros [] y [= <-]. done. Qed.
Lemma nodekey_good : good c_nodekey. Proof. apply pair_good; [apply u64_good|apply npath_good]. Qed.
Lemma node_type_good : good c_node_type.
Proof. apply conv_good; [apply enum2_good; [apply unit_good|apply usize_good]|by intros []|]. intros [[]|] y [= <-]; done. Qed.
Lemma child_good : good c_child.
Proof.
  apply conv_good; [apply pair_good; [apply b32_good|apply pair_good; [apply u64_good|apply node_type_good]]|by intros []|]. intros [? []] y [= <-]; done.
Qed.
Lemma children_good : good c_children.
Proof. apply conv_good; [apply pair_good; [apply array_good, option_good, child_good|apply usize_good]|by intros []|]. intros [] y [= <-]; done. Qed.
Lemma node_good : good c_node.
Proof.
  apply conv_good; [apply enum3_good; [apply unit_good|apply pair_good; [apply children_good|apply usize_good]|apply leaf_good]|by intros []|].
  intros [[]|[[]|]] y [= <-]; done.
Qed.
Lemma stats_good : good c_stats.
Proof. apply conv_good; [repeat apply pair_good; apply usize_good|by intros []|]. intros [[[] ?] ?] y [= <-]; done. Qed.
Lemma map_good {K V} `{Countable K} cmp (ck : codec K) (cv : codec V) : lawful cmp -> good ck -> good cv -> good (c_btreemap cmp ck cv).
Proof. intros L. apply btreemap_good; apply L. Qed.
Lemma set_good {K} `{Countable K} cmp (ck : codec K) : lawful cmp -> good ck -> good (c_btreeset cmp ck).
Proof. intros L. apply btreeset_good; apply L. Qed.
Lemma node_batch_good : good c_node_batch.
Proof.
  apply pair_good.
  - apply map_good; [apply pair_lawful; [apply N_lawful|apply np_lawful]|apply nodekey_good|apply node_good].
  - apply map_good; [apply pair_lawful; [apply N_lawful|apply key_lawful]|apply pair_good; [apply u64_good|apply b32_good]|apply option_good, bytevec_good].
Qed.
Lemma batch_good : good c_batch.
Proof.
  apply conv_good; [apply pair_good; [apply pair_good; [apply node_batch_good|]|apply vec_good, stats_good]|by intros []|].
  - apply set_good; [apply pair_lawful; [apply N_lawful|apply pair_lawful; [apply N_lawful|apply np_lawful]]|apply pair_good; [apply u64_good|apply nodekey_good]].
  - intros [[[] ?] ?] y [= <-]; done.
Qed.

(** [x] serialises to some bytes; deserialising these, alone or followed by anything, gives [x] back and leaves what
    followed; and no other bytes deserialise to [x]. *)
Definition round_trips {A} (c : codec A) (x : A) : Prop :=
  exists bs, enc c x = Some bs /\ (forall rest, dec c (bs ++ rest) = Some (x, rest)) /\
             (forall bs', try_from_slice c bs' = Some x <-> bs' = bs).
Lemma good_round_trips {A} (c : codec A) x : good c -> is_Some (enc c x) -> round_trips c x.
Proof.
  intros G [bs E]. exists bs. split; [done|]. split; [intros; by apply (g_rt _ G)|]. intros bs'. rewrite (slice_iff _ _ _ G). split; congruence.
Qed.

(** ** Sizes that the fields can hold *)
Definition u32_ok (n : nat) : Prop := N.of_nat n < 4294967296.
Definition u64_ok (n : nat) : Prop := N.of_nat n < 18446744073709551616.
Definition U64_ok (n : N) : Prop := n < 18446744073709551616.

Lemma u64_total n : U64_ok n -> is_Some (enc c_u64 n).
Proof. apply (uint_total 8). Qed.
Lemma usize_total n : u64_ok n -> is_Some (enc c_usize n).
Proof. apply (uint_total 8). Qed.
Lemma b32_enc x : enc c_b32 x = Some (b32 x).
Proof. cbn. by rewrite b32_length. Qed.
Lemma b32_total x : is_Some (enc c_b32 x).
Proof. rewrite b32_enc. by eexists. Qed.
Lemma bytevec_total l : u32_ok (length l) -> is_Some (enc c_bytevec l).
Proof. intros L. apply vec_total; [exact L|]. apply Forall_forall. intros b _. by eexists. Qed.
Lemma leaf_total l : is_Some (enc c_leaf l).
Proof. apply pair_total; apply b32_total. Qed.
Lemma smnode_total n : is_Some (enc c_smnode n).
Proof.
  destruct n as [|l r|l]; cbn [enc c_smnode c_conv c_enum3].
  - by eexists.
  - destruct (pair_total c_b32 c_b32 l r (b32_total l) (b32_total r)) as [e ->]. by eexists.
  - destruct (leaf_total l) as [e ->]. by eexists.
Qed.
Lemma proof_total p : u32_ok (length (p_siblings p)) -> is_Some (enc c_proof p).
Proof.
  intros L. cbn [enc c_proof c_conv]. apply pair_total; [apply option_total; intros; apply leaf_total|].
  apply pair_total; [|by eexists]. apply vec_total; [exact L|]. apply Forall_forall. intros; apply smnode_total.
Qed.
Lemma npath_total p : u64_ok (np_num p) -> u32_ok (length (np_bytes p)) -> is_Some (enc c_npath p).
Proof. intros A B. cbn [enc c_npath c_conv]. apply pair_total; [by apply usize_total|by apply bytevec_total]. Qed.
Lemma nodekey_total k : U64_ok k.1 -> u64_ok (np_num k.2) -> u32_ok (length (np_bytes k.2)) -> is_Some (enc c_nodekey k).
Proof. intros A B C. destruct k. apply pair_total; [by apply u64_total|by apply npath_total]. Qed.

(** ** C45 *)
(** Root, key and value hashes; leaves; sibling nodes. *)
Theorem C45_hash (x : bytes32) : round_trips c_b32 x.
Proof. apply good_round_trips; [apply b32_good|apply b32_total]. Qed.
Theorem C45_leaf (l : leaf_node) : round_trips c_leaf l.
Proof. apply good_round_trips; [apply leaf_good|apply leaf_total]. Qed.
(** Proofs, update proofs, range proofs. *)
Theorem C45_proof (p : sm_proof) : u32_ok (length (p_siblings p)) -> round_trips c_proof p.
Proof. intros L. apply good_round_trips; [apply proof_good|by apply proof_total]. Qed.
Theorem C45_update_proof (ps : list sm_proof) :
  u32_ok (length ps) -> Forall (fun p => u32_ok (length (p_siblings p))) ps -> round_trips c_update_proof ps.
Proof.
  intros L F. apply good_round_trips; [apply update_proof_good|]. apply vec_total; [exact L|]. eapply Forall_impl; [exact F|]. intros; by apply proof_total.
Qed.
Theorem C45_range_proof (p : range_proof) : u32_ok (length (right_siblings p)) -> round_trips c_range_proof p.
Proof.
  intros L. apply good_round_trips; [apply range_proof_good|]. cbn [enc c_range_proof c_conv]. apply pair_total; [|by eexists].
  apply vec_total; [exact L|]. apply Forall_forall. intros; apply smnode_total.
Qed.
(** Nibble paths and node keys: for every path a tree can hold. *)
Lemma pack_rep l : represents (pack l) l.
Proof.
  split; [done|]. cbn [np_bytes pack]. 
  assert (G : forall n (l : list nibble), (length l <= n)%nat -> bytes_nibbles (pack_bytes l) = l ++ (if Nat.even (length l) then [] else [zero_nibble])).
  { induction n as [|n IH]; intros [|h [|x m]] E; cbn in E; try lia; try done.
    - change (pack_bytes [h]) with [NibbleFacts.join h zero_nibble]. cbn. by rewrite hi_join, lo_join.
    - change (pack_bytes (h :: x :: m)) with (NibbleFacts.join h x :: pack_bytes m). cbn [bytes_nibbles flat_map byte_nibbles app].
      rewrite hi_join, lo_join. fold (bytes_nibbles (pack_bytes m)). rewrite IH by lia. done. }
  by apply (G (length l)).
Qed.
Lemma pack_inj l m : pack l = pack m -> l = m.
Proof. intros E. eapply rep_inj_l; [apply pack_rep|]. rewrite E. apply pack_rep. Qed.
Lemma pack_len l : (length (pack_bytes l) <= length l)%nat.
Proof.
  assert (G : forall n (l : list nibble), (length l <= n)%nat -> (length (pack_bytes l) <= length l)%nat).
  { induction n as [|n IH]; intros [|h [|x m]] E; cbn in *; try lia. specialize (IH m). lia. }
  by apply (G (length l)).
Qed.
Lemma key_raw_inj nk nk' : key_raw nk = key_raw nk' -> nk = nk'.
Proof. destruct nk, nk'. unfold key_raw. cbn. intros E. injection E as -> E2 E3. f_equal. apply pack_inj. unfold pack. congruence. Qed.
Theorem C45_nibble_path (p : npath) l : represents p l -> u32_ok (length l) -> round_trips c_npath p.
Proof.
  intros R L. apply good_round_trips; [apply npath_good|]. replace p with (pack l) by (eapply rep_inj_p; [apply pack_rep|done]). unfold u32_ok in L.
  apply npath_total; cbn [pack np_num np_bytes]; unfold u64_ok, u32_ok; pose proof (pack_len l); lia.
Qed.
Lemma nodekey_total' (nk : nodekey) : U64_ok nk.1 -> u32_ok (length nk.2) -> is_Some (enc c_nodekey (key_raw nk)).
Proof. unfold U64_ok, u32_ok. intros A B. pose proof (pack_len nk.2). apply nodekey_total; cbn; unfold U64_ok, u64_ok, u32_ok; lia. Qed.
(** the bytes of a node key determine the node key: distinct nodes never share a storage key *)
Theorem C45_node_key (nk : nodekey) : U64_ok nk.1 -> u32_ok (length nk.2) ->
  round_trips c_nodekey (key_raw nk) /\ forall nk', enc c_nodekey (key_raw nk') = enc c_nodekey (key_raw nk) -> nk' = nk.
Proof.
  intros A B. pose proof (nodekey_total' nk A B) as T. split; [by apply good_round_trips; [apply nodekey_good|]|]. intros nk' E. destruct T as [e T].
  rewrite T in E. apply (slice_rt _ _ _ nodekey_good) in E, T. apply key_raw_inj. congruence.
Qed.

(** Nodes. *)
Definition child_fits (c : child) : Prop := U64_ok (c_version c) /\ u64_ok (c_leaf_count c).
Definition node_fits (n : node) : Prop :=
  match n with
  | Internal i => u64_ok (in_leaf_count i) /\ forall n c, in_children i !! n = Some c -> child_fits c
  | _ => True
  end.
Lemma node_total n : node_fits n -> is_Some (enc c_node (node_raw n)).
Proof.
  destruct n as [|[ch lc]|l]; cbn [node_fits node_raw in_children in_leaf_count].
  - intros _. by eexists.
  - intros [L F]. cbn [enc c_node c_conv c_enum3].
    assert (is_Some (enc (c_pair c_children c_usize) (children_raw ch, lc))) as [e ->]; [|by eexists].
    apply pair_total; [|by apply usize_total]. cbn [enc c_children c_conv children_raw ca_slots ca_num]. apply pair_total.
    + cbn [enc c_array]. rewrite map_length. change (length all_nibbles =? 16)%nat with true. cbn iota. apply items_total. apply Forall_forall.
      intros o (n & -> & _)%elem_of_list_fmap. apply option_total. intros c E. destruct (F _ _ E) as [A B]. cbn [enc c_child c_conv].
      apply pair_total; [apply b32_total|]. apply pair_total; [by apply u64_total|]. unfold c_leaf_count in B. cbn [enc c_node_type c_conv].
      destruct (c_type c) as [|m]; [by eexists|]. cbn [enc c_enum2]. destruct (usize_total m B) as [e ->]. by eexists.
    + apply usize_total. unfold u64_ok. rewrite num_size. 
      assert (size ch <= 16)%nat; [|lia]. rewrite <- size_dom. change 16%nat with (length all_nibbles).
      rewrite <- (size_list_to_set (C := gset nibble)) by apply all_nibbles_nodup. apply subseteq_size. intros n _. rewrite elem_of_list_to_set. apply all_nibbles_complete.
  - intros _. cbn [enc c_node c_conv c_enum3]. destruct (leaf_total l) as [e ->]. by eexists.
Qed.
Lemma children_raw_inj ch ch' : children_raw ch = children_raw ch' -> ch = ch'.
Proof.
  intros E. apply (f_equal ca_slots) in E. unfold children_raw in E. cbn [ca_slots] in E. apply map_eq. intros n. apply Some_inj.
  by rewrite <- !slot_lookup, E.
Qed.
Lemma node_raw_inj n n' : node_raw n = node_raw n' -> n = n'.
Proof.
  destruct n as [|[ch lc]|l], n' as [|[ch' lc']|l']; cbn [node_raw in_children in_leaf_count]; try done.
  - intros E. assert (children_raw ch = children_raw ch' /\ lc = lc') as [E1 ->] by (injection E; intros; subst; split; [|done]; unfold children_raw; f_equal; [|done]; cbn [map all_nibbles]; congruence). by apply children_raw_inj in E1 as ->.
  - by intros [= ->].
Qed.
(** Node::encode / Node::decode are Borsh *)
Theorem C45_node (n : node) : node_fits n ->
  round_trips c_node (node_raw n) /\ forall n', enc c_node (node_raw n') = enc c_node (node_raw n) -> n' = n.
Proof.
  intros F. pose proof (node_total n F) as T. split; [by apply good_round_trips; [apply node_good|]|]. intros n' E. destruct T as [e T].
  rewrite T in E. apply (slice_rt _ _ _ node_good) in E, T. apply node_raw_inj. congruence.
Qed.

(** Update batches. *)
Record batch_fits (b : tree_batch) : Prop := {
  bf_nodes : u32_ok (size (tb_nodes b));
  bf_node : forall nk n, tb_nodes b !! nk = Some n -> U64_ok nk.1 /\ u32_ok (length nk.2) /\ node_fits n;
  bf_values : u32_ok (size (tb_values b));
  bf_value : forall v k x, tb_values b !! (v, k) = Some x -> U64_ok v /\ forall y, x = Some y -> u32_ok (length y);
  bf_stale : u32_ok (size (tb_stale b));
  bf_index : forall v nk, (v, nk) ∈ tb_stale b -> U64_ok v /\ U64_ok nk.1 /\ u32_ok (length nk.2);
  bf_stats : u32_ok (length (tb_stats b));
  bf_stat : Forall (fun s => u64_ok (new_nodes s) /\ u64_ok (new_leaves s) /\ u64_ok (stale_nodes s) /\ u64_ok (stale_leaves s)) (tb_stats b) }.

Section entries_len.
Context {K : Type} `{Countable K} (cmp : K -> K -> comparison).
Lemma insert_sorted_len {V} (kv : K * V) l : length (insert_sorted cmp kv l) = S (length l).
Proof. induction l as [|x l IH]; [done|]. cbn. destruct (cmp kv.1 x.1); cbn; auto. Qed.
Lemma sorted_entries_len {V} (m : gmap K V) : length (sorted_entries cmp m) = size m.
Proof. unfold sorted_entries, size, map_size. induction (map_to_list m) as [|x l IH]; [done|]. cbn. by rewrite insert_sorted_len, IH. Qed.
Context (L : lawful cmp).
Lemma map_total {V} (ck : codec K) (cv : codec V) (m : gmap K V) : u32_ok (size m) ->
  (forall k v, m !! k = Some v -> is_Some (enc ck k) /\ is_Some (enc cv v)) -> is_Some (enc (c_btreemap cmp ck cv) m).
Proof using L.
  intros S F. cbn [enc c_btreemap c_conv]. apply vec_total; [by rewrite sorted_entries_len|]. apply Forall_forall. intros [k v] E.
  apply (sorted_entries_ok cmp (l_eq _ L) (l_anti _ L) (l_trans _ L)), elem_of_map_to_list in E. apply pair_total; by apply F in E as [? ?].
Qed.
Lemma set_total (ck : codec K) (s : gset K) : u32_ok (size s) -> (forall k, k ∈ s -> is_Some (enc ck k)) -> is_Some (enc (c_btreeset cmp ck) s).
Proof using L.
  intros S F. cbn [enc c_btreeset c_conv]. apply vec_total.
  - rewrite map_length, sorted_entries_len. unfold u32_ok in S. enough (size (set_to_map (fun k => (k, tt)) s : gmap K unit) = size s) as -> by done.
    unfold set_to_map. rewrite <- size_dom, dom_list_to_map_L. rewrite <- list_fmap_compose, (list_fmap_ext _ id), list_fmap_id by done.
    by rewrite list_to_set_elements_L.
  - apply Forall_forall. intros k (x & -> & E)%elem_of_list_fmap. destruct x as [k []].
    apply (sorted_entries_ok cmp (l_eq _ L) (l_anti _ L) (l_trans _ L)), elem_of_map_to_list, set_map_lookup in E. by apply F.
Qed.
End entries_len.

Global Instance key_raw_Inj : Inj eq eq key_raw. Proof. intros x y. apply key_raw_inj. Qed.
Lemma size_set_map_inj {A B} `{Countable A} `{Countable B} (f : A -> B) (s : gset A) : Inj eq eq f -> size (set_map f s : gset B) = size s.
Proof. intros I. unfold set_map. rewrite size_list_to_set by (apply NoDup_fmap_2; [done|apply NoDup_elements]). by rewrite fmap_length. Qed.
Lemma batch_total b : batch_fits b -> is_Some (enc c_batch (batch_raw b)).
Proof.
  intros [N1 N2 V1 V2 S1 S2 T1 T2]. cbn [enc c_batch c_conv batch_raw rb_nodes rb_values rb_stale rb_stats].
  apply pair_total; [apply pair_total; [apply pair_total|]|].
  - apply map_total; [apply pair_lawful; [apply N_lawful|apply np_lawful]|by rewrite <- size_dom, dom_kmap_L, size_set_map_inj, size_dom, map_size_fmap by apply _|].
    intros k n (nk & -> & E)%lookup_kmap_Some; [|apply _]. rewrite lookup_fmap in E. destruct (tb_nodes b !! nk) as [n0|] eqn:E0; [|done]. injection E as <-.
    destruct (N2 _ _ E0) as (A & B & C). split; [by apply nodekey_total'|by apply node_total].
  - apply map_total; [apply pair_lawful; [apply N_lawful|apply key_lawful]|done|]. intros [v k] x E. destruct (V2 _ _ _ E) as [A B].
    split; [apply pair_total; [by apply u64_total|apply b32_total]|]. apply option_total. intros y ->. by apply bytevec_total, B.
  - apply set_total; [apply pair_lawful; [apply N_lawful|apply pair_lawful; [apply N_lawful|apply np_lawful]]| |].
    + rewrite size_set_map_inj; [done|]. intros [v nk] [v' nk'] E. cbn in E. apply pair_equal_spec in E as [-> E]. by apply key_raw_inj in E as ->.
    + intros x ([v nk] & -> & E)%elem_of_map. destruct (S2 _ _ E) as (A & B & C). apply pair_total; [by apply u64_total|by apply nodekey_total'].
  - apply vec_total; [exact T1|]. eapply Forall_impl; [exact T2|]. intros s (A & B & C & D). cbn [enc c_stats c_conv].
    repeat apply pair_total; by apply usize_total.
Qed.
Lemma batch_raw_inj b b' : batch_raw b = batch_raw b' -> b = b'.
Proof.
  intros E. pose proof (f_equal rb_nodes E) as E1. pose proof (f_equal rb_values E) as E2. pose proof (f_equal rb_stale E) as E3. pose proof (f_equal rb_stats E) as E4.
  cbn [batch_raw rb_nodes rb_values rb_stale rb_stats] in E1, E2, E3, E4. destruct b as [n v s t], b' as [n' v' s' t']. cbn [tb_nodes tb_values tb_stale tb_stats] in *. subst v' t'.
  assert (n = n') as <-.
  { apply map_eq. intros nk. apply (f_equal (fun m => m !! key_raw nk)) in E1. rewrite !lookup_kmap, !lookup_fmap in E1 by apply _.
    destruct (n !! nk), (n' !! nk); try done. cbn in E1. apply Some_inj, node_raw_inj in E1 as ->. done. }
  assert (s = s') as <-; [|done]. apply set_eq. intros [v0 nk].
  assert (G : forall s : gset (N * nodekey), (v0, nk) ∈ s <-> (v0, key_raw nk) ∈ (set_map (fun x => (x.1, key_raw x.2)) s : gset (N * (N * npath)))).
  { intros s0. rewrite elem_of_map. split; [intros X; by exists (v0, nk)|]. intros ([v1 nk1] & X & Y). cbn in X. apply pair_equal_spec in X as [-> X]. by apply key_raw_inj in X as ->. }
  by rewrite (G s), (G s'), E3.
Qed.
(** A batch, once serialised and deserialised, is the batch: same nodes, values, stale indices and statistics. *)
Theorem C45_batch (b : tree_batch) : batch_fits b ->
  round_trips c_batch (batch_raw b) /\ forall b', enc c_batch (batch_raw b') = enc c_batch (batch_raw b) -> b' = b.
Proof.
  intros F. pose proof (batch_total b F) as T. split; [by apply good_round_trips; [apply batch_good|]|]. intros n' E. destruct T as [e T].
  rewrite T in E. apply (slice_rt _ _ _ batch_good) in E, T. apply batch_raw_inj. congruence.
Qed.
(** Whatever bytes are given, a deserialiser that accepts them returns a value whose serialisation is those bytes:
    proofs and batches are not malleable on the wire. *)
Theorem C45_canonical_proof bs (p : sm_proof) : try_from_slice c_proof bs = Some p <-> enc c_proof p = Some bs.
Proof. apply slice_iff, proof_good. Qed.
Theorem C45_canonical_range_proof bs p : try_from_slice c_range_proof bs = Some p <-> enc c_range_proof p = Some bs.
Proof. apply slice_iff, range_proof_good. Qed.
Theorem C45_canonical_update_proof bs ps : try_from_slice c_update_proof bs = Some ps <-> enc c_update_proof ps = Some bs.
Proof. apply slice_iff, update_proof_good. Qed.
Theorem C45_canonical_node bs n : try_from_slice c_node bs = Some n <-> enc c_node n = Some bs.
Proof. apply slice_iff, node_good. Qed.
Theorem C45_canonical_batch bs b : try_from_slice c_batch bs = Some b <-> enc c_batch b = Some bs.
Proof. apply slice_iff, batch_good. Qed.
