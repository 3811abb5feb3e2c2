(** C26, C27: iteration.  For every history and every readable version, iterating from a key yields exactly
    the entries not below it, in key order, and iterating from an index yields the entries from that rank on. *)
From Verif Require Import Base Spec SpecOrder NodeType ProofDef TreeCache Tree Mock Driver Iterator KeyFacts SmtFacts ProofFacts NodeFacts Canon CanonSib ReadFacts PutFacts InsertFacts PutTop VersionFacts ValueFacts StoreFacts DriverFacts DriverFacts2 LeafVersion KeyOrder OrderFacts IterFacts ThmProof Demo.
From Coq Require Import Lia.
Local Opaque Spec.smt.

(** What the consumer of an iterator sees: the items, each [Ok], then [None] for ever after. *)
Inductive yields (rd : reader) : jmt_iter -> list (key * value) -> Prop :=
| yields_nil it : iter_next rd it = Ok (None, it) -> yields rd it []
| yields_cons it it' kx l : iter_next rd it = Ok (Some kx, it') -> yields rd it' l -> yields rd it (kx :: l).

(** [entries] is the sorted list of the bindings, and the only one. *)
Theorem C26_entries_spec {A} (m : gmap key A) : StronglySorted key_lt (entries m).*1 /\
  (forall k x, (k, x) ∈ entries m <-> m !! k = Some x) /\
  (forall l, StronglySorted key_lt l.*1 -> (forall k x, (k, x) ∈ l <-> m !! k = Some x) -> l = entries m).
Proof.
  assert (G : forall l : list (key * A), StronglySorted key_lt l.*1 <-> StronglySorted elt l).
  { induction l as [|a l IH]; [split; constructor|]. rewrite fmap_cons. split; intros S; apply StronglySorted_inv in S as [S F]; constructor.
    - by apply IH. - rewrite Forall_fmap in F. eapply Forall_impl; [exact F|]. done.
    - by apply IH. - rewrite Forall_fmap. eapply Forall_impl; [exact F|]. done. }
  split; [apply G, entries_sorted|]. split; [intros; apply entries_elem|].
  intros l S E. apply entries_unique; [by apply G|done].
Qed.

Theorem C26_entries_from_spec {A} (m : gmap key A) start : StronglySorted key_lt (entries_from start m).*1 /\
  (forall k x, (k, x) ∈ entries_from start m <-> m !! k = Some x /\ ~ key_lt k start).
Proof.
  split.
  - pose proof (entries_sorted m) as S. unfold entries_from. induction S as [|a l S IH F]; [constructor|]. rewrite filter_cons. case_decide; [|done].
    rewrite fmap_cons. constructor; [done|]. rewrite Forall_fmap. rewrite Forall_forall in *. intros b [_ Hb]%elem_of_list_filter. by apply F.
  - intros k x. unfold entries_from. rewrite elem_of_list_filter, entries_elem. cbn [fst]. unfold key_ltb, key_lt. destruct (key_compare k start); intuition congruence.
Qed.

Section thm.
Context (H : list byte -> bytes32).
Lemma yields_rest m ver rd v : stored H rd (H <$> m) ver v ->
  (forall p n k x, 2 <= size (U p m) -> U (p ++ [n]) m = {[ k := x ]} -> rd_value rd (ver (p ++ [n])) k = Some x) ->
  (forall k x, m = {[ k := x ]} -> rd_value rd v k = Some x) ->
  forall l it, it_rest H m ver v it l -> yields rd it l.
Proof.
  intros St Hv Hv0. induction l as [|kx l IH]; intros it R; pose proof (iter_next_ok H m ver rd v St Hv Hv0 it _ R) as E; cbn in E.
  - by constructor.
  - destruct E as (it' & E & R'). econstructor; [done|]. by apply IH.
Qed.
Lemma read_iter ops st xs v : run H ops = Ok (st, xs) -> readable ops v -> let m := contents_at (history ops) v in let rd := store_reader st in
  exists ver, stored H rd (H <$> m) ver v /\
  (forall p n k x, 2 <= size (U p m) -> U (p ++ [n]) m = {[ k := x ]} -> rd_value rd (ver (p ++ [n])) k = Some x) /\
  (forall k x, m = {[ k := x ]} -> rd_value rd v k = Some x).
Proof.
  intros R [L1 L2] m rd. apply run_inv in R as [_ S]. destruct (read_ok H _ _ _ _ _ v S L1 L2) as (x & E & Vx & Mx & St).
  exists (a_ver (vs_a x)). split; [done|]. split.
  - intros p n k y Mn EU. unfold rd. rewrite (value_ok H _ _ _ _ _ _ _ S).
    rewrite (run_leaf_value H ops x (N.to_nat v) k (p ++ [n]) (H y)); [..|done| | |].
    + rewrite N2Nat.id. fold m. assert (X : U (p ++ [n]) m !! k = Some y) by (rewrite EU; apply lookup_singleton). by apply U_lookup in X as [X _].
    + destruct p; discriminate.
    + rewrite parent_snoc, Mx, U_fm_size. done.
    + rewrite Mx, U_fm. fold m. rewrite EU. apply map_fmap_singleton.
  - intros k y Em. unfold rd. rewrite (value_ok H _ _ _ _ _ _ _ S). fold m. rewrite Em. apply lookup_singleton.
Qed.

(** C26: the iterator starting at [start]. *)
Theorem C26_iterate_from (ops : list op) st xs v start : run H ops = Ok (st, xs) -> readable ops v ->
  exists it, iter_new (store_reader st) v start = Ok it /\ yields (store_reader st) it (entries_from start (contents_at (history ops) v)).
Proof.
  intros R Rv. destruct (read_iter ops st xs v R Rv) as (ver & St & Hv & Hv0).
  destruct (iter_new_ok H _ ver _ v St start) as (it & E & Rt). exists it. split; [done|].
  eapply yields_rest; [done|done|done|exact Rt].
Qed.
(** C27: the iterator starting at the [idx]-th entry. *)
Theorem C27_iterate_by_index (ops : list op) st xs v idx : run H ops = Ok (st, xs) -> readable ops v ->
  exists it, iter_new_by_index (store_reader st) v idx = Ok it /\ yields (store_reader st) it (drop idx (entries (contents_at (history ops) v))).
Proof.
  intros R Rv. destruct (read_iter ops st xs v R Rv) as (ver & St & Hv & Hv0).
  destruct (iter_new_by_index_ok H _ ver _ v St idx) as (it & E & Rt). exists it. split; [done|].
  eapply yields_rest; [done|done|done|exact Rt].
Qed.
(** Hence the two agree: the iterator by index [i] yields what the iterator from the [i]-th key yields. *)
Theorem C27_index_is_rank {A} (m : gmap key A) idx k x : entries m !! idx = Some (k, x) -> entries_from k m = drop idx (entries m).
Proof.
  intros E. pose proof (entries_sorted m) as S. unfold entries_from. rewrite <- (take_drop_middle _ _ _ E) in *.
  set (l1 := take idx (entries m)) in *. set (l2 := drop (Datatypes.S idx) (entries m)) in *.
  assert (L1 : length l1 = idx) by (apply take_length_le; apply lookup_lt_Some in E; lia).
  rewrite filter_app, drop_app_alt by done.
  assert (F1 : filter (fun kx : key * A => key_ltb kx.1 k = false) l1 = []).
  { clear -S. induction l1 as [|a l IH]; [done|]. apply StronglySorted_inv in S as [S F]. rewrite filter_cons, decide_False; [by apply IH|].
    rewrite Forall_forall in F. assert (T : elt a (k, x)) by (apply F; apply elem_of_app; right; by left). unfold elt, key_lt in T. unfold key_ltb. cbn in T. by rewrite T. }
  rewrite F1. cbn [app]. assert (S2 : StronglySorted elt ((k, x) :: l2)).
  { clear -S. induction l1 as [|a l IH]; [done|]. apply StronglySorted_inv in S as [S _]. by apply IH. }
  rewrite filter_cons. cbn [fst]. rewrite decide_True.
  2:{ unfold key_ltb. destruct (key_compare k k) eqn:C; try done. assert (T : key_lt k k) by exact C. by apply key_lt_irrefl in T. }
  f_equal. apply StronglySorted_inv in S2 as [_ F2]. clear -F2. induction F2 as [|a l T F IH]; [done|]. rewrite filter_cons, decide_True; [by rewrite IH|].
  unfold elt in T. cbn in T. unfold key_ltb. destruct (key_compare a.1 k) eqn:C; try done. assert (T' : key_lt a.1 k) by exact C.
  exfalso. eapply key_lt_irrefl, key_lt_trans; [exact T|exact T'].
Qed.

(** The theorems applied to the demo history. *)
Example demo_iterate st xs : run H demo = Ok (st, xs) -> exists it, iter_new (store_reader st) 4 K80 = Ok it /\
  yields (store_reader st) it [(K80, va); (KC0, vc)].
Proof.
  intros R. destruct (C26_iterate_from demo st xs 4 K80 R) as (it & E & Y); [apply demo_readable|]. exists it. split; [done|].
  assert (X : entries_from K80 (contents_at (history demo) 4) = [(K80, va); (KC0, vc)]) by (vm_compute; reflexivity). by rewrite X in Y.
Qed.
Example demo_index st xs : run H demo = Ok (st, xs) -> exists it, iter_new_by_index (store_reader st) 4 1 = Ok it /\
  yields (store_reader st) it [(K80, va); (KC0, vc)].
Proof.
  intros R. destruct (C27_iterate_by_index demo st xs 4 1 R) as (it & E & Y); [apply demo_readable|]. exists it. split; [done|].
  assert (X : drop 1 (entries (contents_at (history demo) 4)) = [(K80, va); (KC0, vc)]) by (vm_compute; reflexivity). by rewrite X in Y.
Qed.
End thm.
