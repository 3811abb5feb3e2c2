(** C101: the bytes of the serialised forms are those of SpecLayout.v, and only these are read back. *)
From Coq Require Import Strings.String.
From Verif Require Import Base Spec KeyFacts KeyOrder SmtFacts NodeType NodeFacts ProofDef ProofFacts TreeCache Tree Mock Driver.
From Verif Require Import Json ThmJson.
From Verif Require Import NibblePath NibbleFacts ThmNibble ChildrenArr ThmChildren Codec Borsh ThmBorsh ThmBorshStore ThmProof ThmStore SpecLayout Toy Demo.
From Coq Require Import Lia Sorted.
Local Open Scope nat_scope.
Local Opaque Spec.smt N.pow.

Lemma le_eq n : forall x, le_bytes n x = le n x.
Proof.
  induction n as [|n IH]; intros x; [done|]. cbn [le_bytes]. rewrite IH. unfold le. cbn [seq map]. f_equal; [by rewrite N.pow_0_r, N.div_1_r|].
  rewrite <- seq_shift, map_map. apply map_ext. intros i. rewrite Nat2N.inj_succ, N.pow_succ_r', N.div_div by (try apply N.pow_nonzero; done). done.
Qed.
Lemma uint_lay n x : (x < 256 ^ N.of_nat n)%N -> enc (c_uint n) x = Some (le n x).
Proof. intros L. cbn [enc c_uint]. apply N.ltb_lt in L as ->. by rewrite le_eq. Qed.
Lemma u64_lay x : U64_ok x -> enc c_u64 x = Some (u64 x). Proof. apply (uint_lay 8). Qed.
Lemma usize_lay n : u64_ok n -> enc c_usize n = Some (usize n). Proof. apply (uint_lay 8). Qed.
Lemma pair_lay {A B} (ca : codec A) (cb : codec B) x y a b : enc ca x = Some a -> enc cb y = Some b -> enc (c_pair ca cb) (x, y) = Some (a ++ b).
Proof. intros E F. cbn. by rewrite E, F. Qed.
Lemma items_lay {A} (c : codec A) (f : A -> list byte) l : (forall x, x ∈ l -> enc c x = Some (f x)) -> enc_items c l = Some (concat (map f l)).
Proof.
  induction l as [|x l IH]; intros F; [done|]. cbn [enc_items map concat]. rewrite (F x) by left. cbn [mbind option_bind].
  rewrite IH by (intros; apply F; by right). done.
Qed.
Lemma vec_lay {A} (c : codec A) (f : A -> list byte) l : u32_ok (length l) -> (forall x, x ∈ l -> enc c x = Some (f x)) -> enc (c_vec c) l = Some (listed f l).
Proof. intros L F. cbn [enc c_vec]. rewrite (uint_lay 4) by exact L. cbn [mbind option_bind]. by rewrite (items_lay c f l F). Qed.
Lemma option_lay {A} (c : codec A) (f : A -> list byte) o : (forall x, o = Some x -> enc c x = Some (f x)) -> enc (c_option c) o = Some (optional_bytes f o).
Proof. intros F. destruct o as [x|]; [|done]. cbn [enc c_option]. by rewrite (F x eq_refl). Qed.
Lemma leaf_lay l : enc c_leaf l = Some (leaf_bytes l).
Proof. cbn [enc c_leaf c_conv]. apply pair_lay; apply b32_enc. Qed.
Lemma sibling_lay n : enc c_smnode n = Some (sibling_bytes n).
Proof.
  destruct n as [|l r|l]; cbn [enc c_smnode c_conv c_enum3]; [done| |].
  - by rewrite (pair_lay _ _ _ _ _ _ (b32_enc l) (b32_enc r)).
  - by rewrite leaf_lay.
Qed.
Lemma siblings_lay l : u32_ok (length l) -> enc (c_vec c_smnode) l = Some (listed sibling_bytes l).
Proof. intros L. apply vec_lay; [done|]. intros; apply sibling_lay. Qed.
Lemma unit_lay : enc c_unit tt = Some []. Proof. done. Qed.
Lemma proof_lay p : u32_ok (length (p_siblings p)) -> enc c_proof p = Some (proof_bytes p).
Proof.
  intros L. cbn [enc c_proof c_conv]. apply pair_lay; [apply option_lay; intros; apply leaf_lay|]. rewrite (pair_lay _ _ _ _ _ _ (siblings_lay _ L) unit_lay).
  by rewrite app_nil_r.
Qed.
Lemma range_lay p : u32_ok (length (right_siblings p)) -> enc c_range_proof p = Some (range_proof_bytes p).
Proof. intros L. cbn [enc c_range_proof c_conv]. rewrite (pair_lay _ _ _ _ _ _ (siblings_lay _ L) unit_lay). by rewrite app_nil_r. Qed.
Lemma bytevec_lay l : u32_ok (length l) -> enc c_bytevec l = Some (listed (fun b => [b]) l).
Proof. intros L. apply vec_lay; [done|]. intros; done. Qed.

Lemma pair_eq h x : Borsh.pack_pair h x = byte_of_N (16 * nib_to_N h + nib_to_N x).
Proof. destruct h as [[] [] [] []], x as [[] [] [] []]; reflexivity. Qed.
Lemma packed_step h x m : packed (h :: x :: m) = byte_of_N (16 * nib_to_N h + nib_to_N x) :: packed m.
Proof.
  unfold packed. cbn [length]. replace ((S (S (length m)) + 1) / 2) with (S ((length m + 1) / 2)).
  2:{ replace (S (S (length m)) + 1) with ((length m + 1) + 1 * 2) by lia. rewrite Nat.div_add by lia. lia. }
  cbn [seq map]. f_equal. rewrite <- seq_shift, map_map. apply map_ext. intros i. unfold two_nibbles, nibble_at.
  replace (2 * S i) with (S (S (2 * i))) by lia. replace (S (S (2 * i)) + 1) with (S (S (2 * i + 1))) by lia. done.
Qed.
Lemma packed_eq l : pack_bytes l = packed l.
Proof.
  enough (G : forall n (l : list nibble), length l <= n -> pack_bytes l = packed l) by by apply (G (length l)).
  clear l. induction n as [|n IH]; intros [|h [|x m]] L; try (destruct h as [[] [] [] []]; reflexivity); try done; cbn [length] in L; try lia.
  change (pack_bytes (h :: x :: m)) with (Borsh.pack_pair h x :: pack_bytes m). rewrite packed_step, pair_eq. f_equal. apply IH. lia.
Qed.
Lemma path_lay l : u32_ok (length l) -> enc c_npath (pack l) = Some (path_bytes l).
Proof.
  intros L. cbn [enc c_npath c_conv pack np_num np_bytes]. pose proof (pack_len l). unfold path_bytes. rewrite <- packed_eq. unfold u32_ok in *.
  apply pair_lay; [apply usize_lay; unfold u64_ok; lia|apply bytevec_lay; unfold u32_ok; lia].
Qed.
Lemma nodekey_lay (nk : nodekey) : U64_ok nk.1 -> u32_ok (length nk.2) -> enc c_nodekey (key_raw nk) = Some (node_key_bytes nk).
Proof. intros A B. apply pair_lay; [by apply u64_lay|by apply path_lay]. Qed.
Lemma child_lay c : child_fits c -> enc c_child c = Some (child_bytes c).
Proof.
  intros [A B]. cbn [enc c_child c_conv]. unfold child_bytes. apply pair_lay; [apply b32_enc|]. apply pair_lay; [by apply u64_lay|].
  unfold c_leaf_count in B. cbn [enc c_node_type c_conv]. destruct (c_type c) as [|m]; [done|]. cbn [enc c_enum2]. by rewrite (usize_lay m B).
Qed.
Lemma node_lay n : node_fits n -> enc c_node (node_raw n) = Some (node_bytes n).
Proof.
  destruct n as [|[ch lc]|l]; cbn [node_fits node_raw in_children in_leaf_count]; [done| |].
  - intros [L F]. cbn [enc c_node c_conv c_enum3]. unfold node_bytes. cbn [in_children in_leaf_count].
    set (a := concat (map (fun n => optional_bytes child_bytes (ch !! n)) all_nibbles)).
    assert (E : enc c_children (children_raw ch) = Some (a ++ usize (size ch))).
    { cbn [enc c_children c_conv children_raw ca_slots ca_num]. apply pair_lay.
      - cbn [enc c_array]. rewrite map_length. change (length all_nibbles =? 16)%nat with true. cbn iota. unfold a.
        rewrite <- (map_map (fun n => ch !! n) (optional_bytes child_bytes)). apply items_lay.
        intros o (n & -> & _)%elem_of_list_fmap. apply option_lay. intros c E. by apply child_lay, (F n).
      - rewrite num_size. apply usize_lay. unfold u64_ok. assert (size ch <= 16)%nat; [|lia]. rewrite <- size_dom. change 16%nat with (length all_nibbles).
        rewrite <- (size_list_to_set (C := gset nibble)) by apply all_nibbles_nodup. apply subseteq_size. intros n _. rewrite elem_of_list_to_set. apply all_nibbles_complete. }
    rewrite (pair_lay _ _ _ _ _ _ E (usize_lay lc L)). cbn [mbind option_bind]. by rewrite <- app_assoc.
  - intros _. cbn [enc c_node c_conv c_enum3]. by rewrite leaf_lay.
Qed.
Lemma stats_lay s : u64_ok (new_nodes s) /\ u64_ok (new_leaves s) /\ u64_ok (stale_nodes s) /\ u64_ok (stale_leaves s) -> enc c_stats s = Some (stats_bytes s).
Proof.
  intros (A & B & C & D). cbn [enc c_stats c_conv]. unfold stats_bytes.
  rewrite (pair_lay _ _ _ _ _ _ (pair_lay _ _ _ _ _ _ (pair_lay _ _ _ _ _ _ (usize_lay _ A) (usize_lay _ B)) (usize_lay _ C)) (usize_lay _ D)). by rewrite <- !app_assoc.
Qed.

(** ** The order of the entries of a batch *)
Lemma nibs_before l m : length l = length m -> nibs_compare l m = Lt -> nibbles_before l m.
Proof.
  revert m. induction l as [|a l IH]; intros [|b m] L; cbn [length nibs_compare] in *; try lia; try done.
  destruct (N.compare_spec (nib_to_N a) (nib_to_N b)) as [E|E|E]; [|intros _; by exists [], a, b, l, m|done].
  intros C. apply nib_to_N_inj in E as <-. destruct (IH m ltac:(lia) C) as (p & x & y & l' & m' & -> & -> & X). by exists (a :: p), x, y, l', m'.
Qed.
Lemma bytes_before_ok l m : length l = length m -> bytes_compare l m = Lt -> bytes_before l m.
Proof.
  revert m. induction l as [|a l IH]; intros [|b m] L; cbn [length bytes_compare] in *; try lia; try done.
  destruct (N.compare_spec (Byte.to_N a) (Byte.to_N b)) as [E|E|E]; [|intros _; by exists [], a, b, l, m|done].
  intros C. assert (a = b) as <- by (rewrite <- (byte_of_to_N a), E; apply byte_of_to_N). destruct (IH m ltac:(lia) C) as (p & x & y & l' & m' & -> & -> & X). by exists (a :: p), x, y, l', m'.
Qed.
Lemma pair_before {A B} (ca : A -> A -> comparison) (cb : B -> B -> comparison) x y :
  pair_cmp ca cb x y = Lt -> ca x.1 y.1 = Lt \/ ca x.1 y.1 = Eq /\ cb x.2 y.2 = Lt.
Proof. unfold pair_cmp. destruct (ca x.1 y.1); auto. Qed.
Lemma node_key_before_ok x y : nodekey_cmp (key_raw x) (key_raw y) = Lt -> node_key_before x y.
Proof.
  intros [E|[E1 E2]]%pair_before; cbn [fst snd key_raw] in *; [left; by apply N.compare_lt_iff|]. apply N.compare_eq in E1. right. split; [done|].
  rewrite (C37_order _ _ _ _ (pack_rep x.2) (pack_rep y.2)) in E2. destruct (Nat.compare_spec (length x.2) (length y.2)) as [L|L|L]; [|by left|done]. right. split; [done|by apply nibs_before].
Qed.
Lemma stale_before_ok (x y : N * nodekey) : stale_cmp (x.1, key_raw x.2) (y.1, key_raw y.2) = Lt -> stale_before x y.
Proof.
  intros [E|[E1 E2]]%pair_before; cbn [fst snd] in *; [left; by apply N.compare_lt_iff|]. apply N.compare_eq in E1. right. split; [done|by apply node_key_before_ok].
Qed.
Lemma value_key_before_ok (x y : N * key) : valuekey_cmp x y = Lt -> value_key_before x y.
Proof.
  intros [E|[E1 E2]]%pair_before; cbn [fst snd] in *; [left; by apply N.compare_lt_iff|]. apply N.compare_eq in E1. right. split; [done|]. apply bytes_before_ok; [by rewrite !b32_length|done].
Qed.
Lemma sorted_in_order {A B} (g : A -> B) (R : B -> B -> Prop) (before : A -> A -> Prop) l :
  (forall x y, R (g x) (g y) -> before x y) -> StronglySorted R (map g l) -> in_order before l.
Proof.
  intros F. induction l as [|x l IH]; intros S; constructor; inversion S as [|?? S1 S2]; subst; [|by apply IH].
  intros y Y. apply F. rewrite List.Forall_forall in S2. by apply S2, in_map, elem_of_list_In.
Qed.
Lemma preimage_list {A B} (g : A -> B) l : (forall y, y ∈ l -> exists x, y = g x) -> exists l', l = map g l'.
Proof.
  induction l as [|y l IH]; intros F; [by exists []|]. destruct (F y) as [x ->]; [left|]. destruct IH as [l' ->]; [intros; apply F; by right|]. by exists (x :: l').
Qed.
Lemma klt_keys {K K' V V'} (f : K -> K') (cmp : K' -> K' -> comparison) (g : V -> V') (l : list (K * V)) :
  StronglySorted (klt cmp) (map (fun e => (f e.1, g e.2)) l) -> StronglySorted (fun x y => cmp x y = Lt) (map f (map fst l)).
Proof.
  induction l as [|x l IH]; intros S; cbn [map]; constructor; inversion S as [|?? S1 S2]; subst; [by apply IH|].
  rewrite List.Forall_forall in S2 |- *. rewrite map_map. intros y (z & <- & Z)%in_map_iff. apply (S2 (f z.1, g z.2)). apply in_map_iff. by exists z.
Qed.

(** what a codec does with a value [x] whose bytes are [bs]: it writes them, reads [x] back from them whatever follows, and reads [x] from no others *)
Definition laid_out {A} (c : codec A) (x : A) (bs : list byte) : Prop :=
  enc c x = Some bs /\ (forall rest, dec c (bs ++ rest) = Some (x, rest)) /\ (forall bs', try_from_slice c bs' = Some x <-> bs' = bs).
Lemma laid {A} (c : codec A) x bs : good c -> enc c x = Some bs -> laid_out c x bs.
Proof.
  intros G E. split; [done|]. split; [intros; by apply (g_rt _ G)|]. intros bs'. rewrite (slice_iff _ _ _ G). split; congruence.
Qed.
Lemma nodekey_cmp_lawful : lawful nodekey_cmp. Proof. apply pair_lawful; [apply N_lawful|apply np_lawful]. Qed.
Lemma valuekey_cmp_lawful : lawful valuekey_cmp. Proof. apply pair_lawful; [apply N_lawful|apply key_lawful]. Qed.
Lemma stale_cmp_lawful : lawful stale_cmp. Proof. apply pair_lawful; [apply N_lawful|apply nodekey_cmp_lawful]. Qed.
Lemma sorted_entries_in {K V} `{Countable K} (cmp : K -> K -> comparison) (L : lawful cmp) (m : gmap K V) :
  StronglySorted (klt cmp) (sorted_entries cmp m) /\ forall k v, (k, v) ∈ sorted_entries cmp m <-> m !! k = Some v.
Proof.
  destruct (sorted_entries_ok cmp (l_eq _ L) (l_anti _ L) (l_trans _ L) m) as [S E]. split; [done|]. intros k v. by rewrite E, elem_of_map_to_list.
Qed.
Lemma nodes_entries (m : gmap nodekey node) : exists l, sorted_entries nodekey_cmp (kmap key_raw (node_raw <$> m) : gmap (N * npath) raw_node) = map (fun e => (key_raw e.1, node_raw e.2)) l /\
  (forall nk n, (nk, n) ∈ l <-> m !! nk = Some n) /\ in_order node_key_before (map fst l).
Proof.
  destruct (sorted_entries_in nodekey_cmp nodekey_cmp_lawful (kmap key_raw (node_raw <$> m) : gmap (N * npath) raw_node)) as [S E].
  destruct (preimage_list (fun e : nodekey * node => (key_raw e.1, node_raw e.2)) (sorted_entries nodekey_cmp (kmap key_raw (node_raw <$> m) : gmap (N * npath) raw_node))) as [l X].
  { intros [k n] In. apply E in In. apply lookup_kmap_Some in In as (nk & -> & Y); [|apply _]. rewrite lookup_fmap in Y. destruct (m !! nk) as [n0|]; [|done]. injection Y as <-. by exists (nk, n0). }
  exists l. split; [done|]. rewrite X in S, E. split.
  - intros nk n. specialize (E (key_raw nk) (node_raw n)). rewrite lookup_kmap, lookup_fmap in E by apply _. rewrite elem_of_list_fmap in E. split.
    + intros In. pose proof (proj1 E (ex_intro _ (nk, n) (conj eq_refl In))) as Y. apply fmap_Some in Y as (n0 & Y & Z). apply node_raw_inj in Z as <-. done.
    + intros Y. rewrite Y in E. destruct (proj2 E eq_refl) as ([nk' n'] & Z & In). cbn [fst snd] in Z.
      apply pair_equal_spec in Z as [Z1 Z2]. apply key_raw_inj in Z1 as <-. by apply node_raw_inj in Z2 as <-.
  - apply klt_keys in S. revert S. apply sorted_in_order. apply node_key_before_ok.
Qed.

Lemma stale_entries (s : gset (N * nodekey)) : exists l,
  map fst (sorted_entries stale_cmp (set_to_map (fun k => (k, tt)) (set_map (fun x : N * nodekey => (x.1, key_raw x.2)) s : gset (N * (N * npath))) : gmap (N * (N * npath)) unit)) =
    map (fun e : N * nodekey => (e.1, key_raw e.2)) l /\
  (forall i, i ∈ l <-> i ∈ s) /\ in_order stale_before l.
Proof.
  set (M := (set_to_map (fun k => (k, tt)) (set_map (fun x : N * nodekey => (x.1, key_raw x.2)) s : gset (N * (N * npath))) : gmap (N * (N * npath)) unit)).
  destruct (sorted_entries_in stale_cmp stale_cmp_lawful M) as [S E].
  assert (G : forall k, k ∈ map fst (sorted_entries stale_cmp M) <-> exists i, i ∈ s /\ k = (i.1, key_raw i.2)).
  { intros k. rewrite elem_of_list_fmap. split.
    - intros ([k' []] & -> & In). apply E, set_map_lookup, elem_of_map in In as (i & -> & In). by exists i.
    - intros (i & In & ->). exists (i.1, key_raw i.2, tt). split; [done|]. apply E, set_map_lookup, elem_of_map. by exists i. }
  destruct (preimage_list (fun e : N * nodekey => (e.1, key_raw e.2)) (map fst (sorted_entries stale_cmp M))) as [l X].
  { intros y Y. apply G in Y as (i & _ & ->). by exists i. }
  exists l. split; [done|]. split.
  - intros [v nk]. specialize (G (v, key_raw nk)). rewrite X, elem_of_list_fmap in G. split.
    + intros In. destruct (proj1 G (ex_intro _ (v, nk) (conj eq_refl In))) as ([v' nk'] & In' & Z). cbn [fst snd] in Z.
      apply pair_equal_spec in Z as [-> Z]. by apply key_raw_inj in Z as ->.
    + intros In. destruct (proj2 G (ex_intro _ (v, nk) (conj In eq_refl))) as ([v' nk'] & Z & In'). cbn [fst snd] in Z.
      apply pair_equal_spec in Z as [-> Z]. by apply key_raw_inj in Z as ->.
  - assert (S2 : StronglySorted (fun x y => stale_cmp x y = Lt) (map (fun e : N * nodekey => (e.1, key_raw e.2)) l)).
    { rewrite <- X. clear -S. induction S as [|x l S IH F]; cbn [map]; constructor; [done|]. rewrite List.Forall_forall in F |- *.
      intros y (z & <- & Z)%in_map_iff. by apply F. }
    revert S2. apply sorted_in_order. apply stale_before_ok.
Qed.
Lemma batch_lay b : batch_fits b -> exists bs, enc c_batch (batch_raw b) = Some bs /\ batch_bytes b bs.
Proof.
  intros [N1 N2 V1 V2 S1 S2 T1 T2]. destruct (nodes_entries (tb_nodes b)) as (ns & Ens & Ins & Ons). destruct (stale_entries (tb_stale b)) as (ss & Ess & Iss & Oss).
  destruct (sorted_entries_in valuekey_cmp valuekey_cmp_lawful (tb_values b)) as [Sv Ev]. set (vs := sorted_entries valuekey_cmp (tb_values b)) in *.
  eexists. split; cycle 1.
  { exists ns, vs, ss. split; [done|]. split; [done|]. split; [by intros [v k] x|]. split; [|split; [done|split; [done|reflexivity]]].
    rewrite <- (map_id (map fst vs)). apply (sorted_in_order id (fun x y => valuekey_cmp x y = Lt)); [apply value_key_before_ok|]. rewrite !map_id.
    clear -Sv. induction Sv as [|x l S IH F]; cbn [map]; constructor; [done|]. rewrite List.Forall_forall in F |- *. intros y (z & <- & Z)%in_map_iff. by apply F. }
  cbn [enc c_batch c_conv batch_raw rb_nodes rb_values rb_stale rb_stats].
  assert (EN : enc (c_btreemap nodekey_cmp c_nodekey c_node) (kmap key_raw (node_raw <$> tb_nodes b) : gmap (N * npath) raw_node) =
    Some (listed (fun e : nodekey * node => node_key_bytes e.1 ++ node_bytes e.2) ns)).
  { cbn [enc c_btreemap c_conv]. rewrite Ens.
    assert (Len : length ns = size (tb_nodes b)).
    { rewrite <- (map_length (fun e : nodekey * node => (key_raw e.1, node_raw e.2)) ns), <- Ens, sorted_entries_len.
      rewrite <- size_dom, dom_kmap_L, size_set_map_inj, size_dom, map_size_fmap by apply _. done. }
    replace (listed (fun e : nodekey * node => node_key_bytes e.1 ++ node_bytes e.2) ns) with
      (u32 (length (map (fun e : nodekey * node => (key_raw e.1, node_raw e.2)) ns)) ++ concat (map (fun e : nodekey * node => node_key_bytes e.1 ++ node_bytes e.2) ns)) by (by rewrite map_length).
    cbn [enc c_vec]. rewrite (uint_lay 4) by (rewrite map_length, Len; exact N1). cbn [mbind option_bind].
    assert (It : forall l, (forall nk n, (nk, n) ∈ l -> tb_nodes b !! nk = Some n) -> enc_items (c_pair c_nodekey c_node) (map (fun e : nodekey * node => (key_raw e.1, node_raw e.2)) l) =
      Some (concat (map (fun e : nodekey * node => node_key_bytes e.1 ++ node_bytes e.2) l))).
    { induction l as [|[nk n] l IH]; intros F; [done|]. cbn [map enc_items fst snd concat]. destruct (N2 nk n) as (A & B & C); [apply F; left|].
      rewrite (pair_lay _ _ _ _ _ _ (nodekey_lay nk A B) (node_lay n C)). cbn [mbind option_bind]. rewrite IH by (intros; apply F; by right). done. }
    rewrite It by (intros nk n; apply Ins). done. }
  assert (EV : enc (c_btreemap valuekey_cmp (c_pair c_u64 c_b32) (c_option c_bytevec)) (tb_values b) =
    Some (listed (fun e : (N * key) * option value => (u64 e.1.1 ++ b32 e.1.2) ++ optional_bytes value_bytes e.2) vs)).
  { cbn [enc c_btreemap c_conv]. fold vs. apply vec_lay; [unfold vs; by rewrite sorted_entries_len|]. intros [[v k] x] In. apply Ev in In. destruct (V2 _ _ _ In) as [A B].
    apply pair_lay; [apply pair_lay; [by apply u64_lay|apply b32_enc]|]. apply option_lay. intros y E. by apply bytevec_lay, B. }
  assert (ES : enc (c_btreeset stale_cmp (c_pair c_u64 c_nodekey)) (set_map (fun x : N * nodekey => (x.1, key_raw x.2)) (tb_stale b) : gset (N * (N * npath))) =
    Some (listed (fun e : N * nodekey => u64 e.1 ++ node_key_bytes e.2) ss)).
  { cbn [enc c_btreeset c_conv]. rewrite Ess.
    assert (Len : length ss = size (tb_stale b)).
    { unfold size, set_size. apply Permutation_length. apply NoDup_Permutation; [|apply NoDup_elements|intros x; by rewrite elem_of_elements].
      clear -Oss. induction Oss as [|x l F O IH]; constructor; [|done]. intros In. specialize (F x In).
      destruct F as [?|[_ [?|[_ [?|[_ (p & a & c & l' & m' & E1 & E2 & L)]]]]]]; try lia. rewrite E1 in E2. apply app_inv_head in E2. injection E2 as <- _. lia. }
    replace (listed (fun e : N * nodekey => u64 e.1 ++ node_key_bytes e.2) ss) with
      (u32 (length (map (fun e : N * nodekey => (e.1, key_raw e.2)) ss)) ++ concat (map (fun e : N * nodekey => u64 e.1 ++ node_key_bytes e.2) ss)) by (by rewrite map_length).
    cbn [enc c_vec]. rewrite (uint_lay 4) by (rewrite map_length, Len; exact S1). cbn [mbind option_bind].
    assert (It : forall l, (forall i, i ∈ l -> i ∈ tb_stale b) -> enc_items (c_pair c_u64 c_nodekey) (map (fun e : N * nodekey => (e.1, key_raw e.2)) l) =
      Some (concat (map (fun e : N * nodekey => u64 e.1 ++ node_key_bytes e.2) l))).
    { induction l as [|[v nk] l IH]; intros F; [done|]. cbn [map enc_items fst snd concat]. destruct (S2 v nk) as (A & B & C); [apply F; left|].
      rewrite (pair_lay _ _ _ _ _ _ (u64_lay v A) (nodekey_lay nk B C)). cbn [mbind option_bind]. rewrite IH by (intros; apply F; by right). done. }
    rewrite It by (intros i; apply Iss). done. }
  assert (ET : enc (c_vec c_stats) (tb_stats b) = Some (listed stats_bytes (tb_stats b))).
  { apply vec_lay; [done|]. intros s In. apply stats_lay. rewrite Forall_forall in T2. by apply T2. }
  rewrite !app_assoc. exact (pair_lay _ _ _ _ _ _ (pair_lay _ _ _ _ _ _ (pair_lay _ _ _ _ _ _ EN EV) ES) ET).
Qed.

(** ** C101 *)
Theorem C101_leaf l : laid_out c_leaf l (leaf_bytes l).
Proof. apply laid; [apply leaf_good|apply leaf_lay]. Qed.
Theorem C101_proof p : u32_ok (length (p_siblings p)) -> laid_out c_proof p (proof_bytes p).
Proof. intros L. apply laid; [apply proof_good|by apply proof_lay]. Qed.
Theorem C101_range_proof p : u32_ok (length (right_siblings p)) -> laid_out c_range_proof p (range_proof_bytes p).
Proof. intros L. apply laid; [apply range_proof_good|by apply range_lay]. Qed.
Theorem C101_update_proof ps : u32_ok (length ps) -> Forall (fun p => u32_ok (length (p_siblings p))) ps -> laid_out c_update_proof ps (update_proof_bytes ps).
Proof.
  intros L F. apply laid; [apply update_proof_good|]. apply vec_lay; [done|]. intros p In. rewrite Forall_forall in F. by apply proof_lay, F.
Qed.
Theorem C101_node_key (nk : nodekey) : U64_ok nk.1 -> u32_ok (length nk.2) -> laid_out c_nodekey (key_raw nk) (node_key_bytes nk).
Proof. intros A B. apply laid; [apply nodekey_good|by apply nodekey_lay]. Qed.
Theorem C101_node n : node_fits n -> laid_out c_node (node_raw n) (node_bytes n).
Proof. intros F. apply laid; [apply node_good|by apply node_lay]. Qed.
Theorem C101_batch b : batch_fits b -> exists bs, laid_out c_batch (batch_raw b) bs /\ batch_bytes b bs.
Proof. intros F. destruct (batch_lay b F) as (bs & E & B). exists bs. split; [|done]. apply laid; [apply batch_good|done]. Qed.

Section store.
Context (H : list byte -> bytes32).
Implicit Types (ops : list op).
(** Whatever a commit hands to the store has these bytes. *)
Theorem C101_put_batch ops st xs (sets : list value_set) roots b : run H ops = Ok (st, xs) ->
  put_value_sets H (store_reader st) sets (num_versions ops) = Ok (roots, b) ->
  U64_ok (num_versions ops + N.of_nat (length sets)) -> u32_ok (length sets) ->
  (forall v, u64_ok (size (contents_at (history ops ++ sets) v))) ->
  u32_ok (size (tb_nodes b)) -> u32_ok (size (tb_values b)) -> u32_ok (size (tb_stale b)) ->
  (forall s k y, s ∈ sets -> (k, Some y) ∈ s -> u32_ok (length y)) -> exists bs, laid_out c_batch (batch_raw b) bs /\ batch_bytes b bs.
Proof. intros. apply C101_batch. by eapply put_batch_fits. Qed.
Lemma sibling_size n : length (sibling_bytes n) <= 65.
Proof. destruct n as [|l r|l]; cbn [sibling_bytes]; unfold leaf_bytes; cbn [length]; rewrite ?app_length, ?b32_length; lia. Qed.
Lemma siblings_size l : length (concat (map sibling_bytes l)) <= 65 * length l.
Proof. induction l as [|n l IH]; cbn [map concat length]; [lia|]. rewrite app_length. pose proof (sibling_size n). lia. Qed.
Lemma le_length' n x : length (le n x) = n. Proof. unfold le. by rewrite map_length, seq_length. Qed.
Theorem C101_proof_size p : 5 <= length (proof_bytes p) <= 69 + 65 * length (p_siblings p).
Proof.
  unfold proof_bytes, listed, u32. rewrite !app_length, le_length'. pose proof (siblings_size (p_siblings p)).
  destruct (p_leaf p) as [l|]; cbn [optional_bytes length]; [unfold leaf_bytes; rewrite app_length, !b32_length|]; lia.
Qed.
(** Every proof the tree returns is written in these bytes, and takes at most 16,709 of them, however large the tree. *)
Theorem C101_read_proof ops st xs (v : version) (k : key) x p : run H ops = Ok (st, xs) -> readable ops v ->
  get_with_proof H (store_reader st) k v = Ok (x, p) -> laid_out c_proof p (proof_bytes p) /\ length (proof_bytes p) <= 69 + 65 * 256.
Proof.
  intros R L E. destruct (C49_proof_size H _ _ _ _ _ _ _ R L E) as [B _]. split; [apply C101_proof; unfold u32_ok; lia|]. pose proof (C101_proof_size p). lia.
Qed.
End store.

(** A store that keeps its entries in the order of the serialised node keys does not keep them in the order of the node keys (little-endian versions). *)
Theorem C101_order_refuted : exists x y : nodekey, node_key_before x y /\ bytes_before (node_key_bytes y) (node_key_bytes x).
Proof.
  exists (1%N, []), (256%N, []). split; [left; cbn; lia|]. exists [], x00, x01, (tail (node_key_bytes (256%N, []))), (tail (node_key_bytes (1%N, []))).
  split; [vm_compute; reflexivity|]. split; [vm_compute; reflexivity|]. vm_compute. reflexivity.
Qed.

(** ** The JSON text of the proofs *)
Lemma items_commas l : items_text l = commas (map json_text l).
Proof. induction l as [|x [|y l] IH]; [done|done|]. cbn [items_text map commas] in *. by rewrite IH. Qed.
Lemma decimal_ok b : uint_bytes (N.to_uint (Byte.to_N b)) = decimal b.
Proof. destruct b; vm_compute; reflexivity. Qed.
Lemma arr_commas l : json_text (JArr l) = bracketed (map json_text l).
Proof. by rewrite arr_text, items_commas. Qed.
Lemma obj_commas l : json_text (obj l) = braced (map (fun kx => (kx.1, json_text kx.2)) l).
Proof.
  unfold obj. rewrite obj_text. unfold braced. f_equal. f_equal. rewrite map_map. induction l as [|[k x] [|y l] IH]; [done|done|].
  change (members_text (map _ ((k, x) :: y :: l))) with (quoted (txt k) ++ x3a :: json_text x ++ x2c :: members_text (map (fun kx : string * json => (txt kx.1, kx.2)) (y :: l))).
  rewrite IH. unfold member_text, quoted, in_quotes, txt. cbn [map commas fst snd]. by rewrite <- !app_assoc.
Qed.
Lemma hash_text_ok h : json_text (j_to j_b32 h) = hash_text h.
Proof.
  change (j_to j_b32 h) with (JArr (map (j_to j_u8) (b32 h))). rewrite arr_commas, map_map. unfold hash_text.
  rewrite (map_ext _ decimal); [done|]. intros b. apply decimal_ok.
Qed.
Lemma leaf_text_ok l : json_text (j_to j_leaf l) = leaf_text l.
Proof.
  change (j_to j_leaf l) with (obj [("key_hash"%string, j_to j_b32 (ln_key l)); ("value_hash"%string, j_to j_b32 (ln_vh l))]).
  rewrite obj_commas. cbn [map fst snd]. by rewrite !hash_text_ok.
Qed.
Lemma sibling_text_ok n : json_text (j_to j_smnode n) = sibling_text n.
Proof.
  destruct n as [|l r|l]; [done| |].
  - change (j_to j_smnode (SMInternal l r)) with (obj [("Internal"%string, obj [("left_child"%string, j_to j_b32 l); ("right_child"%string, j_to j_b32 r)])]).
    rewrite obj_commas. cbn [map fst snd]. rewrite obj_commas. cbn [map fst snd]. by rewrite !hash_text_ok.
  - change (j_to j_smnode (SMLeaf l)) with (obj [("Leaf"%string, j_to j_leaf l)]). rewrite obj_commas. cbn [map fst snd]. by rewrite leaf_text_ok.
Qed.
Lemma siblings_text_ok l : json_text (j_to (j_vec j_smnode) l) = bracketed (map sibling_text l).
Proof. change (j_to (j_vec j_smnode) l) with (JArr (map (j_to j_smnode) l)). rewrite arr_commas, map_map. by rewrite (map_ext _ sibling_text) by apply sibling_text_ok. Qed.
Lemma proof_text_ok p : json_text (j_to j_proof p) = proof_text p.
Proof.
  change (j_to j_proof p) with (obj [("leaf"%string, j_to (j_option j_leaf) (p_leaf p)); ("siblings"%string, j_to (j_vec j_smnode) (p_siblings p)); ("phantom_hasher"%string, JNull)]).
  rewrite obj_commas. cbn [map fst snd]. rewrite siblings_text_ok. unfold proof_text. destruct (p_leaf p) as [l|]; [|done].
  change (j_to (j_option j_leaf) (Some l)) with (j_to j_leaf l). by rewrite leaf_text_ok.
Qed.
(** The text of a proof is this one, and it is read back. *)
Theorem C101_json_proof p : to_text j_proof p = proof_text p /\ of_text j_proof (proof_text p) = Some p.
Proof. split; [apply proof_text_ok|]. rewrite <- proof_text_ok. by apply C97_proof. Qed.
Theorem C101_json_range_proof p : to_text j_range_proof p = range_proof_text p /\ of_text j_range_proof (range_proof_text p) = Some p.
Proof.
  enough (E : to_text j_range_proof p = range_proof_text p) by (split; [done|]; rewrite <- E; by apply C97_range_proof).
  unfold to_text. change (j_to j_range_proof p) with (obj [("right_siblings"%string, j_to (j_vec j_smnode) (right_siblings p)); ("_phantom"%string, JNull)]).
  rewrite obj_commas. cbn [map fst snd]. by rewrite siblings_text_ok.
Qed.
Theorem C101_json_update_proof ps : to_text j_update_proof ps = update_proof_text ps /\ of_text j_update_proof (update_proof_text ps) = Some ps.
Proof.
  enough (E : to_text j_update_proof ps = update_proof_text ps) by (split; [done|]; rewrite <- E; by apply C97_update_proof).
  unfold to_text. change (j_to j_update_proof ps) with (JArr (map (j_to j_proof) ps)). rewrite arr_commas, map_map. by rewrite (map_ext _ proof_text) by apply proof_text_ok.
Qed.

(** *** Concrete cases: explicit bytes of a node key, of a node and of a small batch; a batch of a store; a text. *)
Definition child_demo : child := Child K00 1 NTLeaf.
Theorem C101_demo_bytes :
  node_key_bytes (258%N, [nib_of_N 10; nib_of_N 11; nib_of_N 12]) = [x02;x01;x00;x00;x00;x00;x00;x00] ++ [x03;x00;x00;x00;x00;x00;x00;x00] ++ [x02;x00;x00;x00] ++ [xab;xc0] /\
  enc c_nodekey (key_raw (258%N, [nib_of_N 10; nib_of_N 11; nib_of_N 12])) = Some (node_key_bytes (258%N, [nib_of_N 10; nib_of_N 11; nib_of_N 12])) /\
  node_bytes (Internal (mkInternal {[nib_of_N 1 := child_demo]} 1)) =
    [x01; x00] ++ (x01 :: b32 K00 ++ [x01;x00;x00;x00;x00;x00;x00;x00] ++ [x00]) ++ replicate 14 x00 ++ [x01;x00;x00;x00;x00;x00;x00;x00] ++ [x01;x00;x00;x00;x00;x00;x00;x00] /\
  proof_bytes (SMProof None [SMNull; SMLeaf (LeafNode K00 K80)]) = [x00] ++ [x02;x00;x00;x00] ++ [x00] ++ (x02 :: b32 K00 ++ b32 K80).
Proof. split_and!; vm_compute; reflexivity. Qed.
Theorem C101_demo_batch : match demo_b with
  | Some b => match enc c_batch (batch_raw b) with Some bs => (500 <? length bs) && (2 <? size (tb_nodes b)) | None => false end
  | None => false end = true.
Proof. vm_compute. reflexivity. Qed.
Theorem C101_demo_text : range_proof_text (RangeProof [SMNull]) = txt "{""right_siblings"":[""Null""],""_phantom"":null}" /\
  proof_text (SMProof None []) = txt "{""leaf"":null,""siblings"":[],""phantom_hasher"":null}".
Proof. split; vm_compute; reflexivity. Qed.
