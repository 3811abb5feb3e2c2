(** Inserting into the tree: the cache after an insertion holds exactly the canonical tree of the new map. *)
From Verif Require Import Base Spec NodeType ProofDef TreeCache Tree KeyFacts SmtFacts ProofFacts NodeFacts Canon CanonSib ReadFacts.
From Coq Require Import Lia.
Local Opaque Spec.smt.

(** ** Cache operations *)
Definition rest (c : cache) :=
  (tc_root c, tc_next c, tc_values c, fz_nodes c, fz_values c, fz_stale c, fz_stats c, fz_roots c).
Lemma cache_ext c c' : rest c = rest c' -> tc_nodes c = tc_nodes c' -> tc_stale c = tc_stale c' ->
  tc_new_leaves c = tc_new_leaves c' -> tc_stale_leaves c = tc_stale_leaves c' -> c = c'.
Proof. destruct c, c'. unfold rest. simpl. intros [= -> -> -> -> -> -> -> ->] -> -> -> ->. done. Qed.
Definition leafy (o : option node) : bool := match o with Some n => node_is_leaf n | None => false end.

Section ops.
Context (rd : reader).
Definition base (c : cache) (nk : nodekey) : option node :=
  match fz_nodes c !! nk with Some n => Some n | None => rd_node rd nk end.
Lemma base_rest c c' : rest c = rest c' -> base c = base c'.
Proof. unfold rest, base. intros [= _ _ _ -> _ _ _ _]. done. Qed.
Lemma cache_node_base c nk : cache_node rd c nk = match tc_nodes c !! nk with Some n => Some n | None => base c nk end.
Proof. reflexivity. Qed.

Lemma cache_node_in c nk n : tc_nodes c !! nk = Some n -> cache_node rd c nk = Some n.
Proof. rewrite cache_node_base. by intros ->. Qed.
Lemma cache_node_out c nk : tc_nodes c !! nk = None -> cache_node rd c nk = base c nk.
Proof. rewrite cache_node_base. by intros ->. Qed.

Definition cnt_ok (c : cache) : Prop :=
  tc_new_leaves c = size (filter (fun kn => node_is_leaf kn.2 = true) (tc_nodes c)) /\
  tc_stale_leaves c = size (filter (fun nk => leafy (base c nk) = true) (tc_stale c)).

Lemma filter_size_insert (m : gmap nodekey node) nk n : m !! nk = None ->
  size (filter (fun kn => node_is_leaf kn.2 = true) (<[nk := n]> m)) =
  (if node_is_leaf n then S (size (filter (fun kn => node_is_leaf kn.2 = true) m))
   else size (filter (fun kn => node_is_leaf kn.2 = true) m)).
Proof.
  intros E. destruct (node_is_leaf n) eqn:L.
  - rewrite map_filter_insert_True by done. rewrite map_size_insert_None; [done|].
    apply map_filter_lookup_None. by left.
  - rewrite map_filter_insert_False by (simpl; congruence). by rewrite delete_notin.
Qed.
Lemma put_ok c nk n : tc_nodes c !! nk = None -> cnt_ok c -> exists c', cache_put_node c nk n = Ok c' /\
  tc_nodes c' = <[nk := n]> (tc_nodes c) /\ tc_stale c' = tc_stale c /\ rest c' = rest c /\ cnt_ok c'.
Proof.
  intros E [C1 C2]. unfold cache_put_node. rewrite E. eexists. split; [reflexivity|]. cbn.
  split; [done|]. split; [done|]. split; [done|]. split; cbn.
  - rewrite filter_size_insert by done. rewrite C1. done.
  - exact C2.
Qed.
Lemma delete_ok c nk n : cache_node rd c nk = Some n -> (tc_nodes c !! nk = None -> nk ∉ tc_stale c) -> cnt_ok c ->
  exists c', cache_delete_node c nk (node_is_leaf n) = Ok c' /\
  tc_nodes c' = delete nk (tc_nodes c) /\
  (forall x, x ∈ tc_stale c' <-> x ∈ tc_stale c \/ (x = nk /\ tc_nodes c !! nk = None)) /\ rest c' = rest c /\ cnt_ok c'.
Proof.
  rewrite cache_node_base. intros E S [C1 C2]. unfold cache_delete_node.
  destruct (tc_nodes c !! nk) as [n'|] eqn:En.
  - injection E as ->.
    pose proof (filter_size_insert (delete nk (tc_nodes c)) nk n (lookup_delete _ _)) as Sz.
    rewrite insert_delete in Sz by done.
    assert (G : (if node_is_leaf n then match tc_new_leaves c with O => Panic | S x => Ok x end else Ok (tc_new_leaves c)) =
      Ok (size (filter (fun kn => node_is_leaf kn.2 = true) (delete nk (tc_nodes c))))).
    { rewrite C1, Sz. by destruct (node_is_leaf n). }
    rewrite G, bind_Ok. eexists. split; [reflexivity|]. cbn. split; [done|]. split; [naive_solver|]. split; [done|].
    split; [done|]. exact C2.
  - rewrite (bool_decide_false (nk ∈ tc_stale c)) by auto. cbn [negb assert_]. rewrite bind_Ok.
    eexists. split; [reflexivity|]. cbn. split; [by rewrite delete_notin|]. split.
    { intros x. rewrite elem_of_union, elem_of_singleton. naive_solver. }
    split; [done|]. split; cbn; [done|].
    change (base (mkCache _ _ _ _ _ _ _ _ _ _ _ _)) with (base c).
    destruct (node_is_leaf n) eqn:L.
    + assert (F : filter (fun x => leafy (base c x) = true) ({[nk]} ∪ tc_stale c) =
        {[nk]} ∪ filter (fun x => leafy (base c x) = true) (tc_stale c)).
      { apply set_eq. intros x. rewrite elem_of_filter, !elem_of_union, elem_of_filter, elem_of_singleton.
        split; [naive_solver|]. intros [->|?]; [|naive_solver]. rewrite E. cbn. auto. }
      rewrite F, size_union, size_singleton, C2; [done|]. intros x ->%elem_of_singleton [_ ?]%elem_of_filter. by apply S.
    + assert (F : filter (fun x => leafy (base c x) = true) ({[nk]} ∪ tc_stale c) =
        filter (fun x => leafy (base c x) = true) (tc_stale c)).
      { apply set_eq. intros x. rewrite !elem_of_filter, !elem_of_union, elem_of_singleton.
        split; [|naive_solver]. intros [Hx [->|?]]; [|done]. rewrite E in Hx. cbn in Hx. congruence. }
      rewrite F. done.
Qed.
End ops.

(** ** Paths *)
Definition parent (q : list nibble) : list nibble := take (length q - 1) q.
Lemma parent_snoc (p : list nibble) n : parent (p ++ [n]) = p.
Proof. unfold parent. rewrite app_length. simpl. rewrite Nat.add_sub. apply take_app. Qed.
Lemma parent_app p r : r <> [] -> parent (p ++ r) = p ++ parent r.
Proof.
  intros Hr. destruct r as [|x r _] using rev_ind; [done|]. by rewrite app_assoc, !parent_snoc.
Qed.
Lemma parent_eq q : q <> [] -> exists x, q = parent q ++ [x].
Proof. intros Hq. destruct q as [|x l _] using rev_ind; [done|]. exists x. by rewrite parent_snoc. Qed.
Lemma path_cases (p q : list nibble) : p `prefix_of` q -> q = p \/ exists m r, q = p ++ m :: r.
Proof. intros [[|m r] ->]; [left; by rewrite app_nil_r|right; eauto]. Qed.
Lemma prefix_snoc_cons (p : list nibble) n m r : (p ++ [n]) `prefix_of` (p ++ m :: r) -> n = m.
Proof. intros [z Ez]. rewrite <- app_assoc in Ez. apply app_inv_head in Ez. simpl in Ez. by injection Ez. Qed.
Lemma prefix_snoc_self (p : list nibble) n : ~ (p ++ [n]) `prefix_of` p.
Proof. intros E%prefix_length. rewrite app_length in E. simpl in E. lia. Qed.
Lemma prefix_snoc_in (p : list nibble) n (r : list nibble) : (p ++ [n]) `prefix_of` (p ++ n :: r).
Proof. exists r. by rewrite <- app_assoc. Qed.

(** nodes of the tree of [M] at or below [p] *)
Definition lv (p q : list nibble) (M : gmap key vhash) : Prop :=
  p `prefix_of` q /\ U q M <> ∅ /\ (q = p \/ 2 <= size (U (parent q) M)).
Lemma lv_self p M : lv p p M <-> U p M <> ∅.
Proof. unfold lv. naive_solver. Qed.
Lemma lv_child p n q M : 2 <= size (U p M) -> (p ++ [n]) `prefix_of` q -> lv (p ++ [n]) q M <-> lv p q M.
Proof.
  intros Hm Hq. assert (p `prefix_of` q) by (by eapply prefix_app_l). unfold lv. split.
  - intros (_ & Ne & C). split; [done|]. split; [done|]. right. destruct C as [->|?]; [|done]. by rewrite parent_snoc.
  - intros (_ & Ne & C). split; [done|]. split; [done|]. destruct C as [->|?]; [|by right].
    exfalso. by apply prefix_snoc_self in Hq.
Qed.
Lemma lv_small p q M : size (U p M) <= 1 -> lv p q M <-> q = p /\ U p M <> ∅.
Proof.
  intros Hs. split; [|intros [-> ?]; by apply lv_self].
  intros (Hp & Ne & C). destruct (path_cases p q Hp) as [->|(m & r & ->)]; [done|]. exfalso.
  destruct C as [C|C].
  - rewrite <- (app_nil_r p) in C at 2. apply app_inv_head in C. done.
  - rewrite parent_app in C by done. pose proof (U_app_size p (parent (m :: r)) M). lia.
Qed.

(** the version of a node after writing key [k] at version [v] *)
Definition upd {A} (v : A) (k : key) (M : gmap key vhash) (ver : list nibble -> A) (q : list nibble) : A :=
  if decide (q `prefix_of` key_nibbles k) then v
  else if decide (2 <= size (U (parent q) M)) then ver q else v.
Lemma upd_prefix {A} (v : A) k M ver q : q `prefix_of` key_nibbles k -> upd v k M ver q = v.
Proof. intros. unfold upd. by rewrite decide_True. Qed.
Lemma upd_other {A} (v : A) k M ver q : ~ q `prefix_of` key_nibbles k -> 2 <= size (U (parent q) M) -> upd v k M ver q = ver q.
Proof. intros. unfold upd. by rewrite decide_False, decide_True. Qed.
Lemma upd_new {A} (v : A) k M ver q : ~ 2 <= size (U (parent q) M) -> upd v k M ver q = v.
Proof. intros. unfold upd. rewrite (decide_False (P:=2 <= _)) by done. by case_decide. Qed.
Lemma U_apply_out q M k vh : ~ q `prefix_of` key_nibbles k -> U q (apply_vh M k vh) = U q M.
Proof.
  intros Hn. unfold U. rewrite <- haspre_bits in Hn. destruct vh; simpl; [by apply under_insert_out|by apply under_delete_out].
Qed.
Lemma U_insert_in q (M : gmap key vhash) k h : q `prefix_of` key_nibbles k -> U q (<[k := h]> M) = <[k := h]> (U q M).
Proof. intros Hq. unfold U. apply under_insert_in. by apply haspre_bits. Qed.
Lemma U_delete q (M : gmap key vhash) k : U q (delete k M) = delete k (U q M).
Proof. apply under_delete. Qed.
Lemma not_prefix_other p n m r k : (p ++ [n]) `prefix_of` key_nibbles k -> m <> n -> ~ (p ++ m :: r) `prefix_of` key_nibbles k.
Proof.
  intros H1 Hne H2. assert ((p ++ [m]) `prefix_of` key_nibbles k) as H3.
  { etransitivity; [|exact H2]. apply prefix_snoc_in. }
  destruct (prefix_weak_total _ _ _ H1 H3) as [W|W]; apply prefix_snoc_cons in W; congruence.
Qed.

Lemma pack_key k : to_bytes32 (pack_nibbles (key_nibbles k)) = Some k.
Proof.
  assert (E : pack_nibbles (key_nibbles k) = b32 k).
  { unfold key_nibbles, bytes_nibbles. induction (b32 k) as [|b l IH]; [done|].
    cbn [flat_map byte_nibbles app pack_nibbles]. by rewrite byte_pack, IH. }
  rewrite E. apply to_bytes32_b32.
Qed.

(** ** Children of canonical nodes *)
Section kids.
Context (H : list byte -> bytes32).
Implicit Types (M : gmap key vhash) (ver : list nibble -> version).
Lemma children_values_omap (ch : children) : children_values ch = omap (fun n => ch !! n) all_nibbles.
Proof.
  unfold children_values, children_iter. generalize all_nibbles as l. induction l as [|n l IH]; [done|].
  cbn [omap list_omap]. destruct (ch !! n) as [c|]; cbn [mbind option_bind map]; by rewrite ?IH.
Qed.
Lemma children_iter_in (ch : children) n c : (n, c) ∈ children_iter ch <-> ch !! n = Some c.
Proof.
  unfold children_iter. rewrite elem_of_list_omap. split.
  - intros (m & _ & E). destruct (ch !! m) eqn:Em; cbn in E; [|done]. by injection E as -> ->.
  - intros E. exists n. split; [apply all_nibbles_complete|]. by rewrite E.
Qed.
Lemma sum_leaf_count_canon M ver p : length p < 64 -> sum_leaf_count (children_of H M ver p) = size (U p M).
Proof.
  intros L. unfold sum_leaf_count. rewrite children_values_omap, <- omap_child_sizes. symmetry. by apply size_children.
Qed.
Lemma iter_sum M ver p : length p < 64 ->
  size (U p M) = sum_list (map (fun nc => c_leaf_count nc.2) (children_iter (children_of H M ver p))).
Proof.
  intros L. rewrite <- (sum_leaf_count_canon M ver) by done. unfold sum_leaf_count, children_values. by rewrite map_map.
Qed.
Lemma iter_child M ver p n c : (n, c) ∈ children_iter (children_of H M ver p) ->
  U (p ++ [n]) M <> ∅ /\ c_hash c = ms H (bits (p ++ [n])) M /\ c_version c = ver (p ++ [n]) /\
  c_leaf_count c = size (U (p ++ [n]) M) /\ c_is_leaf c = (size (U (p ++ [n]) M) =? 1).
Proof. rewrite children_iter_in, children_of_lookup. apply child_of_inv. Qed.
Lemma iter_many M ver p : 2 <= size (U p M) -> exists cn ci more, children_iter (children_of H M ver p) = (cn, ci) :: more /\
  (match more with [] => true | _ => false end) && c_is_leaf ci = false.
Proof.
  intros Hm. pose proof (iter_sum M ver p (U_many_len _ _ Hm)) as S.
  destruct (children_iter (children_of H M ver p)) as [|[cn ci] more] eqn:E; [simpl in S; lia|].
  exists cn, ci, more. split; [done|]. destruct more; [|done]. cbn [andb].
  destruct (iter_child M ver p cn ci) as (_ & _ & _ & E1 & E2); [rewrite E; apply elem_of_list_here|].
  simpl in S. rewrite E2. apply Nat.eqb_neq. lia.
Qed.
Lemma iter_one M ver p : length p < 64 -> size (U p M) = 1 -> exists cn ci, children_iter (children_of H M ver p) = [(cn, ci)] /\
  c_is_leaf ci = true /\ c_version ci = ver (p ++ [cn]) /\ U (p ++ [cn]) M = U p M.
Proof.
  intros L One. pose proof (iter_sum M ver p L) as S.
  destruct (children_iter (children_of H M ver p)) as [|[cn ci] more] eqn:E; [simpl in S; lia|].
  destruct (iter_child M ver p cn ci) as (Ne & _ & Ev & E1 & E2); [rewrite E; apply elem_of_list_here|].
  apply size_ne in Ne. destruct more as [|[cn2 ci2] more].
  - exists cn, ci. simpl in S. split; [done|]. split; [rewrite E2; apply Nat.eqb_eq; lia|]. split; [done|].
    destruct (size_one_inv _ One) as (k & h & E3). unfold U in *. rewrite bits_snoc. eapply ms_sub_single; [|exact E3].
    rewrite <- bits_snoc. by apply size_ne.
  - exfalso. destruct (iter_child M ver p cn2 ci2) as (Ne2 & _ & Ev2 & E3 & _); [rewrite E; apply elem_of_list_further, elem_of_list_here|].
    apply size_ne in Ne2. simpl in S. lia.
Qed.
Lemma internal_new_canon M ver p : 2 <= size (U p M) ->
  internal_new (children_of H M ver p) = Ok (mkInternal (children_of H M ver p) (size (U p M))).
Proof.
  intros Hm. destruct (iter_many M ver p Hm) as (cn & ci & more & E & F). unfold internal_new, num_children, children_values.
  rewrite E. cbn [length Nat.eqb negb assert_]. rewrite bind_Ok. rewrite sum_leaf_count_canon by (by apply U_many_len in Hm).
  destruct more; cbn [length Nat.eqb map snd]; [|by rewrite bind_Ok]. cbn [andb] in F. rewrite F. done.
Qed.
End kids.

(** ** The general invariant: which nodes are new is tracked separately ([nw]), so the base tree may hold nodes of version [v] *)
Section gput.
Context (H : list byte -> bytes32) (rd : reader) (v : version) (T0 : nodekey -> option node).
Implicit Types (M : gmap key vhash) (ver : list nibble -> version) (nw : list nibble -> bool).
Definition GInv (p : list nibble) M ver nw (c : cache) : Prop :=
  (forall w q nd, p `prefix_of` q -> tc_nodes c !! (w, q) = Some nd <-> w = v /\ lv p q M /\ nw q = true /\ nd = node_at H M ver q) /\
  (forall w q, p `prefix_of` q -> (w, q) ∈ tc_stale c <-> is_Some (T0 (w, q)) /\ ~ (lv p q M /\ nw q = false /\ ver q = w)) /\
  (forall q, lv p q M -> nw q = false -> T0 (ver q, q) = Some (node_at H M ver q)) /\
  (forall q, lv p q M -> nw q = true -> ver q = v).
Definition GBase (c : cache) : Prop := forall nk nd, T0 nk = Some nd -> base rd c nk = Some nd.

Lemma ginv_nodes_none p M ver nw c w q : GInv p M ver nw c -> p `prefix_of` q -> ~ (w = v /\ lv p q M /\ nw q = true) -> tc_nodes c !! (w, q) = None.
Proof.
  intros (I1 & _) Hp Hn. destruct (tc_nodes c !! (w, q)) as [nd|] eqn:E; [|done].
  apply (I1 w q nd Hp) in E. naive_solver.
Qed.
Lemma ginv_nodes p M ver nw c q : GInv p M ver nw c -> lv p q M -> (tc_nodes c !! (ver q, q) = None <-> nw q = false).
Proof.
  intros I L. pose proof L as (Hp & _). split.
  - intros Z. destruct (nw q) eqn:E; [|done]. destruct I as (I1 & _ & _ & I4).
    assert (tc_nodes c !! (ver q, q) = Some (node_at H M ver q)) as Z2 by (apply I1; [done|]; rewrite E; auto). congruence.
  - intros E. eapply ginv_nodes_none; [done|done|]. rewrite E. naive_solver.
Qed.
Lemma ginv_read p M ver nw c q : GInv p M ver nw c -> GBase c -> lv p q M -> cache_node rd c (ver q, q) = Some (node_at H M ver q).
Proof.
  intros I B L. pose proof L as (Hp & _). destruct (nw q) eqn:E.
  - apply cache_node_in. destruct I as (I1 & _ & _ & I4). apply I1; [done|]. rewrite E. auto.
  - rewrite cache_node_out by (by apply (ginv_nodes p M ver nw)). apply B. by apply I.
Qed.
Lemma ginv_not_stale p M ver nw c q : GInv p M ver nw c -> lv p q M -> nw q = false -> (ver q, q) ∉ tc_stale c.
Proof. intros (I1 & I2 & I3) L. pose proof L as (Hp & _). rewrite (I2 _ _ Hp). naive_solver. Qed.
Lemma ginv_kids p M ver nw c : GInv p M ver nw c -> GBase c -> 2 <= size (U p M) -> kids_ok H (cache_node rd c) M ver p.
Proof.
  intros I B Hm n Ne. apply (ginv_read p _ _ nw); [done|done|]. split; [by eexists|]. split; [done|]. right. by rewrite parent_snoc.
Qed.
Lemma ginv_sub p n M ver nw c : 2 <= size (U p M) -> GInv p M ver nw c -> GInv (p ++ [n]) M ver nw c.
Proof.
  intros Hm (I1 & I2 & I3 & I4).
  assert (Hp : forall q, (p ++ [n]) `prefix_of` q -> p `prefix_of` q) by (intros q Hq; by eapply prefix_app_l).
  split_and!.
  - intros w q nd Hq. rewrite (I1 w q nd (Hp q Hq)). by rewrite (lv_child p n q M Hm Hq).
  - intros w q Hq. rewrite (I2 w q (Hp q Hq)). by rewrite (lv_child p n q M Hm Hq).
  - intros q Hl. pose proof Hl as (Hq & _). apply I3. by apply (lv_child p n q M Hm Hq).
  - intros q Hl. pose proof Hl as (Hq & _). apply I4. by apply (lv_child p n q M Hm Hq).
Qed.
Lemma gbase_rest c c' : rest c' = rest c -> GBase c -> GBase c'.
Proof. intros E B nk nd Hn. rewrite (base_rest rd c' c E). by apply B. Qed.
(** deleting the node at [p] *)
Lemma ginv_delete p M ver nw c b : GInv p M ver nw c -> GBase c -> cnt_ok rd c -> U p M <> ∅ -> node_is_leaf (node_at H M ver p) = b ->
  exists c', cache_delete_node c (ver p, p) b = Ok c' /\
  tc_nodes c' = delete (ver p, p) (tc_nodes c) /\
  (forall x, x ∈ tc_stale c' <-> x ∈ tc_stale c \/ (x = (ver p, p) /\ nw p = false)) /\ rest c' = rest c /\ cnt_ok rd c'.
Proof.
  intros I B C Ne <-.
  assert (Lp : lv p p M) by (by apply lv_self).
  pose proof (ginv_nodes p M ver nw c p I Lp) as Z.
  destruct (delete_ok rd c (ver p, p) (node_at H M ver p)) as (c' & E & E1 & E2 & E3 & E4); [|intros E|done|].
  { by eapply ginv_read. } { eapply ginv_not_stale; [done|done|]. by apply Z. }
  exists c'. split; [done|]. split; [done|]. split; [|done]. intros x. rewrite E2, Z. done.
Qed.
End gput.

Section put.
Context (H : list byte -> bytes32) (rd : reader) (v : version) (T0 : nodekey -> option node).
Implicit Types (M : gmap key vhash) (ver : list nibble -> version).

(** the cache holds, at and below [p], exactly the canonical nodes of (M, ver): the ones of version [v] in the
    node cache, the others in the base tree [T0]; exactly the base nodes no longer used are stale. *)
Definition Inv (p : list nibble) M ver (c : cache) : Prop :=
  (forall w q nd, p `prefix_of` q -> tc_nodes c !! (w, q) = Some nd <-> w = v /\ lv p q M /\ ver q = v /\ nd = node_at H M ver q) /\
  (forall w q, p `prefix_of` q -> (w, q) ∈ tc_stale c <-> is_Some (T0 (w, q)) /\ ~ (lv p q M /\ ver q = w)) /\
  (forall q, lv p q M -> ver q <> v -> T0 (ver q, q) = Some (node_at H M ver q)).
Definition Base0 (c : cache) : Prop := forall nk nd, T0 nk = Some nd -> nk.1 <> v /\ base rd c nk = Some nd.
Definition outside (p : list nibble) (c c' : cache) : Prop :=
  forall w q, ~ p `prefix_of` q -> tc_nodes c' !! (w, q) = tc_nodes c !! (w, q) /\ ((w, q) ∈ tc_stale c' <-> (w, q) ∈ tc_stale c).

Lemma inv_nodes_none p M ver c w q : Inv p M ver c -> p `prefix_of` q -> ~ (w = v /\ lv p q M /\ ver q = v) -> tc_nodes c !! (w, q) = None.
Proof.
  intros (I1 & _ & _) Hp Hn. destruct (tc_nodes c !! (w, q)) as [nd|] eqn:E; [|done].
  apply (I1 w q nd Hp) in E. naive_solver.
Qed.
Lemma inv_read p M ver c q : Inv p M ver c -> Base0 c -> lv p q M -> cache_node rd c (ver q, q) = Some (node_at H M ver q).
Proof.
  intros I B L. pose proof L as (Hp & _). destruct (decide (ver q = v)) as [E|E].
  - apply cache_node_in. by apply I.
  - rewrite cache_node_out by (eapply inv_nodes_none; [done|done|naive_solver]). apply B. by apply I.
Qed.
Lemma inv_not_stale p M ver c q : Inv p M ver c -> lv p q M -> (ver q, q) ∉ tc_stale c.
Proof. intros (I1 & I2 & I3) L. pose proof L as (Hp & _). rewrite (I2 _ _ Hp). naive_solver. Qed.
Lemma inv_kids p M ver c : Inv p M ver c -> Base0 c -> 2 <= size (U p M) -> kids_ok H (cache_node rd c) M ver p.
Proof.
  intros I B Hm n Ne. apply (inv_read p); [done|done|]. split; [by eexists|]. split; [done|]. right. by rewrite parent_snoc.
Qed.
Lemma inv_sub p n M ver c : 2 <= size (U p M) -> Inv p M ver c -> Inv (p ++ [n]) M ver c.
Proof.
  intros Hm (I1 & I2 & I3).
  assert (Hp : forall q, (p ++ [n]) `prefix_of` q -> p `prefix_of` q) by (intros q Hq; by eapply prefix_app_l).
  split; [|split].
  - intros w q nd Hq. rewrite (I1 w q nd (Hp q Hq)). by rewrite (lv_child p n q M Hm Hq).
  - intros w q Hq. rewrite (I2 w q (Hp q Hq)). by rewrite (lv_child p n q M Hm Hq).
  - intros q Hl. pose proof Hl as (Hq & _). apply I3. by apply (lv_child p n q M Hm Hq).
Qed.
Lemma create_ok nk k vh c : tc_nodes c !! nk = None -> cnt_ok rd c -> exists c',
  create_leaf_node nk (key_nibbles k) vh c = Ok (nk, Leaf (LeafNode k vh), c') /\
  tc_nodes c' = <[nk := Leaf (LeafNode k vh)]> (tc_nodes c) /\ tc_stale c' = tc_stale c /\ rest c' = rest c /\ cnt_ok rd c'.
Proof.
  intros E C. destruct (put_ok rd c nk (Leaf (LeafNode k vh)) E C) as (c' & E1 & R). exists c'. split; [|done].
  unfold create_leaf_node. rewrite pack_key. cbn [unwrap]. rewrite bind_Ok, E1. done.
Qed.
(** the special case *)
Definition newb (ver : list nibble -> version) (q : list nibble) : bool := bool_decide (ver q = v).
Lemma newb_upd k M ver q : newb (upd v k M ver) q = upd true k M (newb ver) q.
Proof. unfold newb, upd. repeat case_decide; try done; by apply bool_decide_true. Qed.
Lemma newb_true ver q : newb ver q = true <-> ver q = v.
Proof. apply bool_decide_eq_true. Qed.
Lemma newb_false ver q : newb ver q = false <-> ver q <> v.
Proof. apply bool_decide_eq_false. Qed.
Lemma base0_gbase c : Base0 c -> GBase rd T0 c.
Proof. intros B nk nd E. by apply B in E as [_ E]. Qed.
Lemma inv_ginv p M ver nw c : (forall nk nd, T0 nk = Some nd -> nk.1 <> v) -> (forall q, nw q = newb ver q) -> Inv p M ver c <-> GInv H v T0 p M ver nw c.
Proof.
  intros T Hn. unfold Inv, GInv.
  assert (A : forall w q, is_Some (T0 (w, q)) -> (lv p q M /\ nw q = false /\ ver q = w <-> lv p q M /\ ver q = w)).
  { intros w q [nd E]. apply T in E. cbn in E. rewrite Hn, newb_false. split; [naive_solver|]. intros [? <-]. done. }
  split.
  - intros (I1 & I2 & I3). split_and!.
    + intros w q nd Hq. rewrite Hn, newb_true. by apply I1.
    + intros w q Hq. rewrite I2 by done. split; intros [E1 E2]; (split; [done|]); by rewrite A in *.
    + intros q L. rewrite Hn, newb_false. by apply I3.
    + intros q L. by rewrite Hn, newb_true.
  - intros (I1 & I2 & I3 & I4). split_and!.
    + intros w q nd Hq. rewrite <- newb_true, <- Hn. by apply I1.
    + intros w q Hq. rewrite I2 by done. split; intros [E1 E2]; (split; [done|]); by rewrite A in *.
    + intros q L. rewrite <- newb_false, <- Hn. by apply I3.
Qed.
Lemma inv_delete p M ver c b : Inv p M ver c -> Base0 c -> cnt_ok rd c -> U p M <> ∅ -> node_is_leaf (node_at H M ver p) = b ->
  exists c', cache_delete_node c (ver p, p) b = Ok c' /\
  tc_nodes c' = delete (ver p, p) (tc_nodes c) /\
  (forall x, x ∈ tc_stale c' <-> x ∈ tc_stale c \/ (x = (ver p, p) /\ ver p <> v)) /\ rest c' = rest c /\ cnt_ok rd c'.
Proof.
  intros I B C Ne E. apply (inv_ginv p M ver (newb ver)) in I; [|intros nk nd X; by apply B in X as [X _]|done].
  destruct (ginv_delete H rd v T0 p M ver (newb ver) c b I (base0_gbase c B) C Ne E) as (c' & E0 & E1 & E2 & E3). exists c'. split; [done|]. split; [done|].
  split; [|done]. intros x. by rewrite E2, newb_false.
Qed.
Lemma base0_rest c c' : rest c' = rest c -> Base0 c -> Base0 c'.
Proof. intros E B nk nd Hn. rewrite (base_rest rd c' c E). by apply B. Qed.
End put.
