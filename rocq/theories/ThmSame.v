(** C81: what a client sees of a version depends on the contents of that version only. *)
From Coq Require Import Strings.String.
From Verif Require Import Base Spec SpecOrder NodeType ProofDef TreeCache Tree Exclusion Iterator Mock Driver SmtFacts ProofFacts ReadFacts Canon ExclFacts IterFacts OrderFacts KeyOrder DriverFacts ThmProof ThmStore ThmStore2 ThmIter ThmExcl ThmCrash Demo Toy.
From Coq Require Import Lia.
Local Open Scope nat_scope.

(** *** Specification: value sets with the same effect on every contents *)
Definition same_effect (s s' : list (key * option value)) : Prop := forall m, apply_set m s = apply_set m s'.
(** the same calls, with value sets of the same effect *)
Definition same_op (o o' : op) : Prop :=
  match o, o' with
  | Purge l, Purge l' => l = l'
  | Commit ss, Commit ss' | CommitP ss, CommitP ss' | Commit ss, CommitP ss' | CommitP ss, Commit ss' => Forall2 same_effect ss ss'
  | _, _ => False
  end.

Section same.
Context (H : list byte -> bytes32).
Local Opaque Spec.smt root_inputs ms_in.
Lemma same_proof ops st xs v ops' st' xs' v' : run H ops = Ok (st, xs) -> readable ops v -> run H ops' = Ok (st', xs') -> readable ops' v' ->
  contents_at (history ops) v = contents_at (history ops') v' -> forall k, get_with_proof H (store_reader st) k v = get_with_proof H (store_reader st') k v'.
Proof.
  intros R Rv R' Rv' E k. destruct (run_view H ops st xs v R Rv) as (ver & St & _ & Hk). destruct (run_view H ops' st' xs' v' R' Rv') as (ver' & St' & _ & Hk').
  rewrite <- E in St', Hk'. destruct (get_with_proof_canon H _ _ ver k v St Hk) as (n & T & ->). destruct (get_with_proof_canon H _ _ ver' k v' St' Hk') as (n' & T' & ->).
  do 3 f_equal. by eapply term_unique.
Qed.
Lemma klt_antisym e a b : klt e a b -> klt e b a -> False.
Proof. destruct e; cbn; intros A B; eapply key_lt_irrefl, key_lt_trans; eauto. Qed.
Lemma nearest_unique (M : gmap key bytes32) e k r r' : nearest M e k r -> nearest M e k r' -> r = r'.
Proof.
  destruct r as [j|], r' as [j'|]; cbn [nearest]; [|..|done].
  - intros (I & L & U) (I' & L' & U'). f_equal. destruct (U j' I' L') as [->|Q]; [done|]. destruct (U' j I L) as [->|Q']; [done|]. exfalso. by eapply klt_antisym.
  - intros (I & L & U) N. by apply N in L.
  - intros N (I & L & U). by apply N in L.
Qed.
(** Two versions with the same contents, of any two histories and at any two version numbers, answer every query alike: values, proofs
    (the very same), root hash, leaf count, range proofs, exclusion proofs, and the entries an iterator yields. *)
Theorem C81_contents_decide ops st xs v ops' st' xs' v' : run H ops = Ok (st, xs) -> readable ops v -> run H ops' = Ok (st', xs') -> readable ops' v' ->
  contents_at (history ops) v = contents_at (history ops') v' ->
  let r := store_reader st in let r' := store_reader st' in
  (forall k, get r k v = get r' k v') /\
  (forall k, get_with_proof H r k v = get_with_proof H r' k v') /\
  get_root_hash H r v = get_root_hash H r' v' /\ get_root_hash_option H r v = get_root_hash_option H r' v' /\
  get_leaf_count r v = get_leaf_count r' v' /\
  (forall k, get_range_proof H r k v = get_range_proof H r' k v') /\
  (forall k, get_with_exclusion_proof H r k v = get_with_exclusion_proof H r' k v') /\
  (forall start, exists it it' l, iter_new r v start = Ok it /\ iter_new r' v' start = Ok it' /\ yields r it l /\ yields r' it' l) /\
  (forall i, exists it it' l, iter_new_by_index r v i = Ok it /\ iter_new_by_index r' v' i = Ok it' /\ yields r it l /\ yields r' it' l).
Proof.
  intros R Rv R' Rv' E r r'. pose proof (same_proof _ _ _ _ _ _ _ _ R Rv R' Rv' E) as P. fold r r' in P. destruct (C03_root_hash H ops st xs v R Rv) as [Q1 Q2]. destruct (C03_root_hash H ops' st' xs' v' R' Rv') as [Q1' Q2']. fold r in Q1, Q2. fold r' in Q1', Q2'. split_and!.
  - intros k. unfold r, r'. rewrite (C01_get H ops st xs), (C01_get H ops' st' xs') by done. by rewrite E.
  - exact P.
  - by rewrite Q1, Q1', E.
  - by rewrite Q2, Q2', E.
  - unfold r, r'. rewrite (C25_leaf_count H ops st xs v R Rv), (C25_leaf_count H ops' st' xs' v' R' Rv'). by rewrite E.
  - intros k. unfold get_range_proof. by rewrite P.
  - intros k. destruct (decide (contents_at (history ops) v = ∅)) as [Em|Ne].
    { unfold r, r'. rewrite (proj1 (C30_no_exclusion_proof_when_empty H ops st xs v k R Rv Em)). rewrite E in Em. by rewrite (proj1 (C30_no_exclusion_proof_when_empty H ops' st' xs' v' k R' Rv' Em)). }
    subst r r'. unfold get_with_exclusion_proof. rewrite P. destruct (C02_get_with_proof H ops' st' xs' k v' R' Rv') as (p & ->). rewrite !bind_Ok. cbn beta iota.
    destruct (contents_at (history ops') v' !! k) as [x|] eqn:Ek; [done|].
    destruct (read_bounds H ops' st' xs' v' k R' Rv' Ek) as (l & rr & -> & Nl & Nr); [by rewrite <- E|]. rewrite <- E in Ek, Nl, Nr.
    destruct (read_bounds H ops st xs v k R Rv Ek Ne) as (l2 & rr2 & -> & Nl2 & Nr2). rewrite !bind_Ok.
    rewrite (nearest_unique _ _ _ _ _ Nl2 Nl), (nearest_unique _ _ _ _ _ Nr2 Nr). destruct l as [l|], rr as [rr|]; rewrite ?P; done.
  - intros start. destruct (C26_iterate_from H ops st xs v start R Rv) as (it & I & Y). destruct (C26_iterate_from H ops' st' xs' v' start R' Rv') as (it' & I' & Y'). rewrite <- E in Y'. by exists it, it', (entries_from start (contents_at (history ops) v)).
  - intros i. destruct (C27_iterate_by_index H ops st xs v i R Rv) as (it & I & Y). destruct (C27_iterate_by_index H ops' st' xs' v' i R' Rv') as (it' & I' & Y'). rewrite <- E in Y'. by exists it, it', (drop i (entries (contents_at (history ops) v))).
Qed.
End same.

(** *** Value sets of the same effect *)
Lemma same_effect_refl s : same_effect s s.
Proof. done. Qed.
Lemma apply_write_comm m (w w' : key * option value) : w.1 <> w'.1 -> apply_write (apply_write m w) w' = apply_write (apply_write m w') w.
Proof.
  destruct w as [k [x|]], w' as [k' [x'|]]; unfold apply_write; cbn [fst snd]; intros Ne; [by apply insert_commute|by apply delete_insert_ne|by rewrite delete_insert_ne|apply delete_commute].
Qed.
(** any order of writes to distinct keys *)
Theorem C81_write_order s s' : Permutation s s' -> NoDup s.*1 -> same_effect s s'.
Proof.
  induction 1 as [|w s s' P IH|w w' s|s1 s2 s3 P1 IH1 P2 IH2]; intros N m; [done|..].
  - cbn [fmap list_fmap] in N. apply NoDup_cons in N as [_ N]. apply (IH N (apply_write m w)).
  - cbn [fmap list_fmap] in N. apply NoDup_cons in N as [N _]. cbn. rewrite apply_write_comm; [done|]. intros E. apply N. rewrite E. by left.
  - rewrite IH1 by done. apply IH2. by rewrite <- P1.
Qed.
(** a write that is followed by another one to the same key does not count *)
Theorem C81_last_write_wins s1 k x s2 y s3 : same_effect (s1 ++ (k, x) :: s2 ++ (k, y) :: s3) (s1 ++ s2 ++ (k, y) :: s3).
Proof.
  intros m. unfold apply_set. rewrite !fold_left_app. cbn [fold_left]. rewrite !fold_left_app. cbn [fold_left]. f_equal. generalize (fold_left apply_write s1 m). clear m s1.
  assert (G : forall s m m', (forall j, j <> k -> m !! j = m' !! j) -> forall j, j <> k -> fold_left apply_write s m !! j = fold_left apply_write s m' !! j).
  { induction s as [|[a b] s IH]; intros m m' E j Nj; cbn [fold_left]; [by apply E|]. apply IH; [|done]. intros i Ni. unfold apply_write. cbn [fst snd]. destruct b as [b|].
    - destruct (decide (i = a)) as [->|N]; [by rewrite !lookup_insert|]. rewrite !lookup_insert_ne by done. by apply E.
    - destruct (decide (i = a)) as [->|N]; [by rewrite !lookup_delete|]. rewrite !lookup_delete_ne by done. by apply E. }
  intros m. assert (F : forall a b : gmap key value, (forall j, j <> k -> a !! j = b !! j) -> apply_write a (k, y) = apply_write b (k, y)).
  { intros a b E. apply map_eq. intros j. unfold apply_write. cbn [fst snd]. destruct (decide (j = k)) as [->|N].
    - destruct y; [by rewrite !lookup_insert|by rewrite !lookup_delete].
    - destruct y; [rewrite !lookup_insert_ne by done|rewrite !lookup_delete_ne by done]; by apply E. }
  apply F, G. intros j N. unfold apply_write. cbn [fst snd]. destruct x; [by rewrite lookup_insert_ne|by rewrite lookup_delete_ne].
Qed.
Lemma same_sets ss ss' : Forall2 same_effect ss ss' -> forall m n, apply_sets m (take n ss) = apply_sets m (take n ss').
Proof.
  induction 1 as [|s s' ss ss' E _ IH]; intros m n; [done|]. destruct n as [|n]; [done|]. cbn [take]. unfold apply_sets in *. cbn [fold_left]. rewrite (E m). apply IH.
Qed.
Lemma same_ops ops ops' : Forall2 same_op ops ops' -> Forall2 same_effect (history ops) (history ops') /\ (forall fn, fold_left floor_step ops fn = fold_left floor_step ops' fn).
Proof.
  induction 1 as [|o o' ops ops' E _ [IH1 IH2]]; [split; [constructor|done]|]. unfold history in *. cbn [flat_map fold_left].
  assert (S : Forall2 same_effect (op_sets o) (op_sets o')) by (destruct o, o'; cbn [same_op op_sets] in *; first [done|by constructor]).
  split; [by apply Forall2_app|]. intros fn. rewrite IH2. f_equal. apply Forall2_length in S. destruct o, o'; cbn [same_op floor_step op_sets] in *; first [done|by rewrite S|by rewrite E].
Qed.
(** Hence the same calls with reordered (or otherwise equivalent) value sets, in any versions, have the same readable versions with the same
    contents; by [C81_contents_decide] all queries answer alike. *)
Theorem C81_equivalent_histories ops ops' : Forall2 same_op ops ops' ->
  num_versions ops = num_versions ops' /\ (forall v, readable ops v <-> readable ops' v) /\ (forall v, contents_at (history ops) v = contents_at (history ops') v).
Proof.
  intros E. destruct (same_ops _ _ E) as [S F]. assert (N : num_versions ops = num_versions ops') by (unfold num_versions; by rewrite (Forall2_length _ _ _ S)). split; [exact N|]. split.
  - intros v. unfold readable, Driver.floor. by rewrite N, F.
  - intros v. unfold contents_at. by apply same_sets.
Qed.
(** FALSE for what is stored: a deletion before an insertion moves a leaf up and down again, so that the nodes and the stale entries of the
    batch depend on the order of the writes. *)
Theorem C81_stored_nodes_refuted : exists ops s s' st xs st1 xs1 st2 xs2, Permutation s s' /\ NoDup s.*1 /\ run toy ops = Ok (st, xs) /\
  run toy (ops ++ [Commit [s]]) = Ok (st1, xs1) /\ run toy (ops ++ [Commit [s']]) = Ok (st2, xs2) /\ st_nodes st1 <> st_nodes st2 /\ st_stale st1 <> st_stale st2.
Proof.
  exists [Commit [[(K00, Some va); (K80, Some vb)]]], [(K80, None); (KC0, Some vc)], [(KC0, Some vc); (K80, None)].
  assert (C : match run toy [Commit [[(K00, Some va); (K80, Some vb)]]], run toy ([Commit [[(K00, Some va); (K80, Some vb)]]] ++ [Commit [[(K80, None); (KC0, Some vc)]]]), run toy ([Commit [[(K00, Some va); (K80, Some vb)]]] ++ [Commit [[(KC0, Some vc); (K80, None)]]]) with
    | Ok _, Ok (st1, _), Ok (st2, _) => negb (bool_decide (dom (st_nodes st1) = dom (st_nodes st2))) && negb (bool_decide (st_stale st1 = st_stale st2)) | _, _, _ => false end = true) by (vm_compute; reflexivity).
  destruct (run toy [Commit [[(K00, Some va); (K80, Some vb)]]]) as [[st xs]|e|]; [|discriminate C..].
  destruct (run toy ([Commit [[(K00, Some va); (K80, Some vb)]]] ++ [Commit [[(K80, None); (KC0, Some vc)]]])) as [[st1 xs1]|e|]; [|discriminate C..].
  destruct (run toy ([Commit [[(K00, Some va); (K80, Some vb)]]] ++ [Commit [[(KC0, Some vc); (K80, None)]]])) as [[st2 xs2]|e|]; [|discriminate C..].
  apply andb_true_iff in C as [C1 C2]. apply negb_true_iff, bool_decide_eq_false in C1, C2. exists st, xs, st1, xs1, st2, xs2. split_and!; try reflexivity.
  - apply perm_swap.
  - apply (bool_decide_unpack _). vm_compute. exact I.
  - intros E. apply C1. by rewrite E.
  - exact C2.
Qed.
(** *** Concrete cases: versions 2 and 3 of [demo] have the same contents; the first value set of [demo] written in the other order. *)
Theorem demo_same H : exists st xs, run H demo = Ok (st, xs) /\ readable demo 2 /\ readable demo 3 /\ contents_at (history demo) 2 = contents_at (history demo) 3 /\
  get_with_proof H (store_reader st) K80 2 = get_with_proof H (store_reader st) K80 3.
Proof.
  destruct (demo_runs H) as (st & xs & R). exists st, xs. pose proof demo_readable as (R2 & R3 & _). pose proof demo_contents as (_ & _ & _ & E & _).
  split; [exact R|]. split; [exact R2|]. split; [exact R3|]. split; [symmetry; exact E|]. exact (same_proof H demo st xs 2 demo st xs 3 R R2 R R3 (eq_sym E) K80).
Qed.
Theorem demo_reordered : Forall2 same_op [Commit [[(K00, Some va); (K80, Some vb)]; [(K80, None)]]] [CommitP [[(K80, Some vb); (K00, Some va)]; [(K80, Some va); (K80, None)]]].
Proof.
  constructor; [|constructor]. constructor; [|constructor; [|constructor]].
  - apply C81_write_order; [apply perm_swap|]. apply (bool_decide_unpack _). vm_compute. exact I.
  - intros m. symmetry. exact (C81_last_write_wins [] K80 (Some va) [] None [] m).
Qed.
