(** The batch algorithm: a batch that meets an existing leaf (tree.rs:226-296). *)
From Verif Require Import Base Spec SpecOrder NodeType ProofDef TreeCache Tree NibbleRange BatchTree KeyFacts SmtFacts ProofFacts NodeFacts Canon CanonSib ReadFacts PutFacts InsertFacts InsertInt KeyOrder OrderFacts NibblePath ThmNode ThmNibble ThmNibbleRange BatchFacts.
From Coq Require Import Lia.
Local Opaque Spec.smt.

Lemma U_union {A} p (K M : gmap key A) : U p (K ∪ M) = U p K ∪ U p M.
Proof.
  apply map_eq. intros k. apply option_eq. intros x. rewrite U_lookup, !lookup_union_Some_raw, !U_lookup. rewrite <- (not_eq_None_Some (U p K !! k)) || idtac.
  assert (E : p `prefix_of` key_nibbles k -> (U p K !! k = None <-> K !! k = None)).
  { intros Hp. rewrite !eq_None_not_Some. split; intros N [y Hy]; apply N; exists y; [by apply U_lookup|by apply U_lookup in Hy as [? _]]. }
  split.
  - intros [[?|[? ?]] Hp]; [by left|right]. rewrite E by done. done.
  - intros [[? ?]|(N & ? & Hp)]; [by split; [left|]|]. split; [right|done]. split; [|done]. by apply E.
Qed.
Lemma U_union_ne {A} p (K M : gmap key A) : U p K <> ∅ -> U p (K ∪ M) <> ∅.
Proof. rewrite U_union. intros Ne E. apply Ne. by apply map_positive_l in E. Qed.
Lemma U_single_in {A} p k (h : A) : p `prefix_of` key_nibbles k -> U p {[ k := h ]} = {[ k := h ]}.
Proof.
  intros Hp. apply map_eq. intros k'. apply option_eq. intros x. rewrite U_lookup. split; [by intros [? _]|]. intros E. split; [done|]. apply lookup_singleton_Some in E as [<- _]. done.
Qed.
Lemma U_single_out {A} p k (h : A) : ~ p `prefix_of` key_nibbles k -> U p {[ k := h ]} = ∅.
Proof.
  intros Hp. apply map_empty. intros k'. apply eq_None_not_Some. intros [x E]. apply U_lookup in E as [E Hp']. apply lookup_singleton_Some in E as [<- _]. done.
Qed.
Lemma size_union_l {A} (K M : gmap key A) : size K <= size (K ∪ M).
Proof. apply size_le, map_union_subseteq_l. Qed.

Lemma U_again {A} p r (m : gmap key A) : U (p ++ r) m = U (p ++ r) (U p m).
Proof. apply map_eq. intros k. apply option_eq. intros x. rewrite !U_lookup. split; [|naive_solver]. intros [? ?]. split; [split; [done|by eapply prefix_app_l]|done]. Qed.
Section leaf.
Context (H : list byte -> bytes32) (rd : reader) (v : version).
Notation cv := (cv v).
Lemma union_leaf_cases p (K : gmap key vhash) lk lh : p `prefix_of` key_nibbles lk -> U p K <> ∅ ->
  (exists h, U p K = {[ lk := h ]} /\ U p (K ∪ {[ lk := lh ]}) = {[ lk := h ]}) \/
  ((forall h, U p K <> {[ lk := h ]}) /\ 2 <= size (U p (K ∪ {[ lk := lh ]}))).
Proof.
  intros Hp Ne. rewrite U_union, U_single_in by done. destruct (size_cases (U p K)) as [E|[(k & h & E)|Hm]]; [done| |].
  - rewrite E. destruct (decide (k = lk)) as [->|N].
    + left. exists h. split; [done|]. apply map_eq. intros k. apply option_eq. intros x. rewrite lookup_union_Some_raw, !lookup_singleton_Some, lookup_singleton_None. naive_solver.
    + right. split.
      * intros h' E'. apply N. assert (X : ({[ k := h ]} : gmap key vhash) !! k = Some h) by by rewrite lookup_singleton. rewrite E' in X. by apply lookup_singleton_Some in X as [-> _].
      * rewrite <- insert_union_singleton_l, map_size_insert_None, map_size_singleton; [done|]. by apply lookup_singleton_None.
  - right. split; [intros h E; rewrite E, map_size_singleton in Hm; lia|]. etransitivity; [exact Hm|]. apply size_union_l.
Qed.

Lemma leaf_match {B} (m : gmap key vhash) lk (f : key -> vhash -> B) (d : B) : (forall h, m <> {[ lk := h ]}) ->
  match entries m with [(k, x)] => if decide (k = lk) then f k x else d | _ => d end = d.
Proof.
  intros N. destruct (entries m) as [|[k x] [|? ?]] eqn:E; [done| |done]. destruct (decide (k = lk)) as [->|]; [|done]. exfalso. apply (N x).
  apply map_eq. intros k. apply option_eq. intros y. rewrite <- entries_elem, E, elem_of_list_singleton, lookup_singleton_Some. naive_solver.
Qed.

Lemma with_leaf_ok (K : gmap key vhash) lk lh m : m = K ∪ {[ lk := lh ]} ->
  forall rem p hc c, length p + rem = 64 -> p `prefix_of` key_nibbles lk -> U p K <> ∅ -> fresh p c -> cnt_ok rd c -> hc_good H hc p m K ->
  exists c', batch_create_with_leaf H rem (v, p) v (LeafNode lk lh) (entries (U p K)) (length p) hc c = Ok (v, p, node_at H m cv p, c') /\ built H rd v p m c c'.
Proof.
  intros Em. induction rem as [|rem IH]; intros p hc c Lr Hp Ne F C G.
  all: destruct (union_leaf_cases p K lk lh Hp Ne) as [(h & E & E')|[N Hm]]; rewrite <- Em in *.
  1, 3: destruct (build_leaf H rd v p m lk h c E' F C) as (c' & P & B); exists c'; split; [|done]; rewrite E, entries_single; cbn [batch_create_with_leaf ln_key]; rewrite decide_True by done; rewrite P, bind_Ok; by rewrite (node_at_leaf H _ _ _ lk h).
  { exfalso. apply U_many_len in Hm. lia. }
  pose proof (U_many_len _ _ Hm) as Lp.
  assert (exists b, key_nibbles lk !! length p = Some b /\ (p ++ [b]) `prefix_of` key_nibbles lk) as (b & Eb & Hb).
  { destruct Hp as [r Er]. destruct r as [|b r]; [exfalso; apply (f_equal length) in Er; rewrite key_nibbles_length, app_length in Er; cbn in Er; lia|].
    exists b. rewrite Er. split; [by rewrite lookup_app_r, Nat.sub_diag by lia|apply prefix_snoc_in]. }
  assert (Out : forall n, n <> b -> U (p ++ [n]) m = U (p ++ [n]) K).
  { intros n Nn. rewrite Em, U_union, U_single_out, (right_id_L ∅ (∪)); [done|]. intros W. pose proof (prefix_two _ _ _ _ W Hb). done. }
  assert (Inb : U (p ++ [b]) m <> ∅).
  { apply U_nonempty. destruct (K !! lk) as [y|] eqn:Ek; [exists lk, y|exists lk, lh]; (split; [|done]); rewrite Em, lookup_union_Some_raw; [by left|right]. by rewrite lookup_singleton. }
  cbn [batch_create_with_leaf ln_key]. rewrite leaf_match by done.
  rewrite get_nibble_lookup, Eb. cbn [unwrap]. rewrite bind_Ok.
  set (body := fun n sub (flag : bool) c => _).
  pose (I := fun (dn : list group) (ch : children) (fl : bool) (c1 : cache) => parts H rd v p m dn.*1 c c1 /\
     (forall n, n ∈ dn.*1 -> ch !! n = child_of H m cv p n) /\ (forall n, n ∉ dn.*1 -> ch !! n = None) /\ (fl = true <-> b ∉ dn.*1)).
  pose proof (sorted_nodup _ (gs_sorted p K)) as ND.
  destruct (loop_groups H v (entries (U p K)) (length p) hc body I (gs_of p K) ∅ c true Lp (gs_grouped p K Lp)) as (rs & ch & fl & c1 & R1 & R2 & P & C1 & C2 & C3).
  - intros dn n g todo ch fl c1 Eg (P & C1 & C2 & C3). assert (Hn : n ∉ dn.*1) by (by eapply not_in_done).
    assert (Ig : (n, g) ∈ gs_of p K) by (rewrite Eg; apply elem_of_app; right; by left). apply gs_elem in Ig as [Nn ->].
    assert (Nm : U (p ++ [n]) m <> ∅) by (rewrite Em; by apply U_union_ne).
    destruct (node_type_canon H m cv p n Nm) as (t & Et & Ec).
    assert (exists fl' c2, body n (entries (U (p ++ [n]) K)) fl c1 = Ok (v, p ++ [n], node_at H m cv (p ++ [n]), fl', c2) /\ built H rd v (p ++ [n]) m c1 c2 /\ (fl' = true <-> b ∉ dn.*1 ++ [n])) as (fl' & c2 & E2 & B2 & F2).
    { unfold body, gen_child. cbn [snd]. case_bool_decide as Eq.
      - subst n. destruct (IH (p ++ [b]) hc c1) as (c2 & E2 & B2); [rewrite app_length; cbn; lia|done|done|by eapply parts_fresh|apply P|by apply hc_sub|].
        rewrite app_length, Nat.add_1_r in E2. rewrite E2, bind_Ok. exists false, c2. split; [done|]. split; [done|]. split; [done|]. intros X. exfalso. apply X, elem_of_app. right. by left.
      - destruct (create_subtree_ok H rd v m rem (p ++ [n]) hc c1) as (c2 & E2 & B2); [rewrite app_length; cbn; lia|done|by eapply parts_fresh|apply P| |].
        { eapply hc_shrink; [|by apply hc_sub]. intros q [r ->]. rewrite (U_again (p ++ [n]) r m), Out, <- U_again by done. done. }
        rewrite app_length, Nat.add_1_r, Out in E2 by done. rewrite E2, bind_Ok. exists fl, c2. split; [done|]. split; [done|]. rewrite C3, not_elem_of_app, elem_of_list_singleton. naive_solver. }
    exists (v, p ++ [n]), (node_at H m cv (p ++ [n])), fl', c2, (ms H (bits (p ++ [n])) m), t. split; [done|]. split; [by eapply hc_get|]. split; [done|].
    unfold I. rewrite fmap_app. cbn [fmap list_fmap fst]. split; [by eapply parts_step|]. split; [|split; [|done]]; intros n' Hn'.
    + destruct (decide (n' = n)) as [->|]; [by rewrite lookup_insert|]. rewrite lookup_insert_ne by done. apply C1.
      apply elem_of_app in Hn' as [?|?%elem_of_list_singleton]; done.
    + rewrite not_elem_of_app, elem_of_list_singleton in Hn'. destruct Hn'. rewrite lookup_insert_ne by done. by apply C2.
  - split; [by apply parts_nil|]. split; [intros n Z; by apply elem_of_nil in Z|]. split; [done|]. split; [|done]. intros _ Z. by apply elem_of_nil in Z.
  - rewrite R1, bind_Ok, R2, bind_Ok. cbv beta iota zeta. destruct fl.
    + assert (Hnb : b ∉ (gs_of p K).*1) by by apply C3.
      assert (Eb0 : U (p ++ [b]) K = ∅). { destruct (decide (U (p ++ [b]) K = ∅)) as [|X]; [done|]. exfalso. by apply Hnb, gs_fst. }
      assert (Es : U (p ++ [b]) m = {[ lk := lh ]}) by (rewrite Em, U_union, Eb0, (left_id_L ∅ (∪)), U_single_in by done; done).
      destruct (build_leaf H rd v (p ++ [b]) m lk lh c1 Es) as (c2 & P2 & B2); [by eapply parts_fresh|apply P|].
      unfold gen_child. cbn [snd]. rewrite P2, !bind_Ok. cbv beta iota zeta.
      destruct (build_internal H rd v p m ((gs_of p K).*1 ++ [b]) (<[ b := Child (leaf_hash H (LeafNode lk lh)) v NTLeaf ]> ch) c c2 Hm) as (c' & N1 & N2 & B).
      * by eapply parts_step.
      * intros n. rewrite elem_of_app, elem_of_list_singleton, gs_fst. destruct (decide (n = b)) as [->|X]; [naive_solver|]. rewrite Out by done. naive_solver.
      * intros n Hn. destruct (decide (n = b)) as [->|X].
        -- rewrite lookup_insert. destruct (node_type_canon H m cv p b Inb) as (t & Et & Ec). rewrite (node_at_leaf H _ _ _ lk lh) in Et by done. cbn in Et. apply Ok_inj in Et. subst t. rewrite Ec. f_equal. f_equal.
           pose proof (node_hash_canon H m cv (p ++ [b])) as X. rewrite (node_at_leaf H _ _ _ lk lh) in X by done. cbn [node_hash] in X. by apply Ok_inj in X.
        -- rewrite lookup_insert_ne by done. apply C1. apply elem_of_app in Hn as [?|?%elem_of_list_singleton]; done.
      * intros n Hn. rewrite not_elem_of_app, elem_of_list_singleton in Hn. destruct Hn. rewrite lookup_insert_ne by done. by apply C2.
      * exists c'. split; [|done]. rewrite N1, bind_Ok. rewrite node_at_internal in N2 by done. rewrite N2, bind_Ok. by rewrite node_at_internal.
    + assert (Hnb : b ∈ (gs_of p K).*1). { destruct (decide (b ∈ (gs_of p K).*1)); [done|]. exfalso. assert (false = true) by by apply C3. done. }
      rewrite bind_Ok. cbv beta iota zeta.
      destruct (build_internal H rd v p m ((gs_of p K).*1) ch c c1 Hm) as (c' & N1 & N2 & B); [done| |done|done|].
      * intros n. rewrite gs_fst. destruct (decide (n = b)) as [->|X]; [|by rewrite Out by done]. apply gs_fst in Hnb. done.
      * exists c'. split; [|done]. rewrite N1, bind_Ok. rewrite node_at_internal in N2 by done. rewrite N2, bind_Ok. by rewrite node_at_internal.
Qed.
End leaf.
