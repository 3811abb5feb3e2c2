(** The step-by-step writes of MockSteps.v and the compact ones of Mock.v have the same outcome (first part of C86). *)
From Coq Require Import Strings.String.
From Verif Require Import Base NodeType TreeCache Mock Codec Borsh ProofFacts ThmBorsh MockSteps.
From Coq Require Import Lia.

(** the outcome of a write, with the store if it succeeded *)
Definition io_result (x : store * outcome unit) : outcome store := _ ← x.2; Ok x.1.

(** *** the orders *)
Lemma inj_lawful {A B} (f : A -> B) (cmp : B -> B -> comparison) : (forall x y, f x = f y -> x = y) -> lawful cmp -> lawful (fun x y => cmp (f x) (f y)).
Proof. intros I L. split; [intros x y; rewrite (l_eq _ L); split; [apply I|by intros ->]|intros; apply (l_anti _ L)|intros x y z; apply (l_trans _ L)]. Qed.
Lemma nk_lawful : lawful nk_cmp.
Proof. apply (inj_lawful key_raw); [apply key_raw_inj|]. apply pair_lawful; [apply N_lawful|apply np_lawful]. Qed.
Lemma log_lawful : lawful log_cmp.
Proof.
  apply (inj_lawful (fun l => (l.1, key_raw l.2))); [intros [a x] [b y] E; f_equal; [exact (f_equal fst E)|apply key_raw_inj; exact (f_equal snd E)]|].
  apply pair_lawful; [apply N_lawful|]. apply pair_lawful; [apply N_lawful|apply np_lawful].
Qed.
Lemma sorted_nodes_nodup m : NoDup (sorted_nodes m).*1.
Proof.
  destruct nk_lawful as [A B C]. eapply sorted_nodup; [exact A|]. by apply sorted_entries_ok.
Qed.
Lemma sorted_nodes_map m : list_to_map (sorted_nodes m) = m.
Proof. destruct nk_lawful as [A B C]. by apply entries_map. Qed.
Lemma sorted_nodes_in m nk : nk ∈ (sorted_nodes m).*1 <-> is_Some (m !! nk).
Proof.
  rewrite <- not_eq_None_Some. rewrite <- (sorted_nodes_map m) at 2. split.
  - intros I E. apply not_elem_of_list_to_map in E. done.
  - intros I. apply dec_stable. intros J. apply I. by apply not_elem_of_list_to_map.
Qed.
Definition log_lt (a b : version * nodekey) : Prop := log_cmp a b = Lt.
Lemma sorted_logs_ok s : StronglySorted log_lt (sorted_logs s) /\ NoDup (sorted_logs s) /\ forall x, x ∈ sorted_logs s <-> x ∈ s.
Proof.
  destruct log_lawful as [A B C]. unfold sorted_logs. set (m := (set_to_map (fun k => (k, tt)) s : gmap (version * nodekey) unit)).
  pose proof (sorted_entries_ok log_cmp A B C m) as [S E]. split; [|split].
  - clear E. induction S as [|x l S IH F]; [constructor|]. cbn [map]. constructor; [done|]. apply List.Forall_forall. intros y Y. apply in_map_iff in Y as (z & <- & Z). rewrite List.Forall_forall in F. by apply F.
  - eapply sorted_nodup; [exact A|exact S].
  - intros x. rewrite elem_of_list_In, in_map_iff. rewrite <- set_map_lookup. fold m. split.
    + intros ([y []] & <- & Y). apply elem_of_list_In, E, elem_of_map_to_list in Y. exact Y.
    + intros Y. exists (x, tt). split; [done|]. apply elem_of_list_In, E, elem_of_map_to_list. exact Y.
Qed.
Lemma log_lt_fst a b : log_lt a b -> (a.1 <= b.1)%N.
Proof. unfold log_lt, log_cmp, stale_cmp, pair_cmp. cbn. destruct (N.compare_spec a.1 b.1); [lia|lia|done]. Qed.
Lemma take_while_filter l s : StronglySorted log_lt s -> take_while (fun log => (log.1 <=? l)%N) s = filter (fun log => (log.1 <= l)%N) s.
Proof.
  induction 1 as [|x s S IH F]; [done|]. cbn [take_while]. destruct (N.leb_spec x.1 l) as [L|L].
  - rewrite filter_cons_True by done. by rewrite IH.
  - rewrite filter_cons_False by lia. assert (N : forall y, y ∈ s -> (l < y.1)%N) by (intros y Y; rewrite Forall_forall in F; apply F, log_lt_fst in Y; lia).
    clear -N. induction s as [|y s IH]; [done|]. rewrite filter_cons_False; [apply IH; intros z Z; apply N; by right|]. assert (l < y.1)%N by (apply N; left). lia.
Qed.

(** *** the loops *)
Lemma put_nodes_ok l : forall s, NoDup l.*1 -> (st_overwrite s = true \/ forall nk, nk ∈ l.*1 -> st_nodes s !! nk = None) ->
  put_nodes_io s l = (mkStore (list_to_map l ∪ st_nodes s) (st_stale s) (st_history s) (st_overwrite s), Ok tt).
Proof.
  induction l as [|[nk nd] l IH]; intros s ND Hf; cbn [put_nodes_io list_to_map foldr fst snd].
  - rewrite (left_id_L ∅ (∪)). by destruct s.
  - apply NoDup_cons in ND as [N ND]. assert (E : (if st_overwrite s then put_nodes_io (set_node s nk nd) l else match st_nodes s !! nk with Some _ => (set_node s nk nd, Panic) | None => put_nodes_io (set_node s nk nd) l end) = put_nodes_io (set_node s nk nd) l).
    { destruct Hf as [->|Hf]; [done|]. rewrite Hf by left. by destruct (st_overwrite s). }
    rewrite E, IH; [|done|].
    + cbn. f_equal. f_equal. rewrite <- insert_union_l, insert_union_r; [done|]. by apply not_elem_of_list_to_map_1.
    + destruct Hf as [Ho|Hf]; [by left|]. right. cbn. intros nk' I. rewrite lookup_insert_ne; [apply Hf; by right|]. by intros ->.
Qed.
Lemma put_nodes_panic l : forall s nk, NoDup l.*1 -> st_overwrite s = false -> nk ∈ l.*1 -> st_nodes s !! nk <> None -> (put_nodes_io s l).2 = Panic.
Proof.
  induction l as [|[nk0 nd] l IH]; intros s nk ND Ho I P; [by apply elem_of_nil in I|]. cbn [put_nodes_io]. rewrite Ho. apply NoDup_cons in ND as [N ND].
  destruct (st_nodes s !! nk0) eqn:E; [done|]. apply elem_of_cons in I as [->|I]; [done|]. eapply (IH _ nk); [done|done|done|]. cbn. rewrite lookup_insert_ne; [done|]. intros ->. done.
Qed.
Lemma put_values_io_ok l : forall s, (_ ← (put_values_io s l).2; Ok (put_values_io s l).1) = (h ← write_values (st_history s) l; Ok (set_history s h)).
Proof.
  induction l as [|[[v k] x] l IH]; intros s; cbn [put_values_io write_values]; [by destruct s|].
  destruct (put_value_hist (st_history s) v k x) as [h| |]; [|done..]. rewrite bind_Ok. rewrite IH. cbn. done.
Qed.
Lemma put_stale_io_ok l : forall s, NoDup l -> (forall log, log ∈ l -> log ∉ st_stale s) ->
  put_stale_io s l = (mkStore (st_nodes s) (list_to_set l ∪ st_stale s) (st_history s) (st_overwrite s), Ok tt).
Proof.
  induction l as [|log l IH]; intros s ND Hf; cbn [put_stale_io list_to_set foldr].
  - rewrite (left_id_L ∅ (∪)). by destruct s.
  - apply NoDup_cons in ND as [N ND]. rewrite bool_decide_eq_false_2 by (apply Hf; left). rewrite IH; [|done|].
    + cbn. f_equal. f_equal. cbn [list_to_set]. set_solver.
    + cbn. intros log' I. assert (log' ∉ st_stale s) by (apply Hf; by right). assert (log' <> log) by (by intros ->). set_solver.
Qed.
Lemma put_stale_io_err l : forall s log, log ∈ l -> log ∈ st_stale s -> (put_stale_io s l).2 = Err (EOther "Duplicated retire log.").
Proof.
  induction l as [|log0 l IH]; intros s log I J; [by apply elem_of_nil in I|]. cbn [put_stale_io]. case_bool_decide as D; [done|].
  apply elem_of_cons in I as [->|I]; [done|]. apply (IH _ log); [done|]. cbn. set_solver.
Qed.
(** what a write of nodes and values never touches, and that nodes never go away, whatever the outcome *)
Lemma put_nodes_grow l : forall s, let s' := (put_nodes_io s l).1 in st_stale s' = st_stale s /\ st_overwrite s' = st_overwrite s /\ forall nk, is_Some (st_nodes s !! nk) -> is_Some (st_nodes s' !! nk).
Proof.
  induction l as [|[nk nd] l IH]; intros s; cbn [put_nodes_io]; [done|]. cbn zeta.
  assert (G : forall nk', is_Some (st_nodes s !! nk') -> is_Some (st_nodes (set_node s nk nd) !! nk')).
  { intros nk' I. cbn. destruct (decide (nk = nk')) as [->|N]; [rewrite lookup_insert; eauto|by rewrite lookup_insert_ne]. }
  destruct (IH (set_node s nk nd)) as (A & B & C). cbn zeta in *.
  destruct (st_overwrite s) eqn:Ho; [|destruct (st_nodes s !! nk); [done|]]; (split; [exact A|]); (split; [rewrite B; exact Ho|]); intros nk' I; by apply C, G.
Qed.
Lemma put_values_grow l : forall s, let s' := (put_values_io s l).1 in st_stale s' = st_stale s /\ st_overwrite s' = st_overwrite s /\ st_nodes s' = st_nodes s.
Proof.
  induction l as [|[[v k] x] l IH]; intros s; cbn [put_values_io]; [done|]. destruct (put_value_hist (st_history s) v k x) as [h| |]; [|done..]. cbn zeta. destruct (IH (set_history s h)) as (A & B & C). done.
Qed.
Lemma write_io_grow s nodes values : let s' := (write_node_batch_io s nodes values).1 in st_stale s' = st_stale s /\ st_overwrite s' = st_overwrite s /\ forall nk, is_Some (st_nodes s !! nk) -> is_Some (st_nodes s' !! nk).
Proof.
  cbn zeta. unfold write_node_batch_io. pose proof (put_nodes_grow (sorted_nodes nodes) s) as (A & B & C). destruct (put_nodes_io s (sorted_nodes nodes)) as [s1 [[]| |]]; [|done..]. cbn [fst] in *.
  destruct (put_values_grow (sorted_values values) s1) as (D & E & F). split; [congruence|]. split; [congruence|]. rewrite F. exact C.
Qed.
Lemma dom_meets {A} (m m' : gmap nodekey A) (B : dom m ∩ dom m' <> (∅ : gset nodekey)) : exists nk, is_Some (m !! nk) /\ is_Some (m' !! nk).
Proof. apply set_choose_L in B as [nk B]. apply elem_of_intersection in B as [B1 B2]. exists nk. by rewrite <- !elem_of_dom. Qed.
Theorem C86_node_batch_outcome (s : store) nodes values : io_result (write_node_batch_io s nodes values) = write_node_batch s nodes values.
Proof.
  unfold io_result, write_node_batch_io, write_node_batch.
  assert (Hok : (st_overwrite s = true \/ forall nk, nk ∈ (sorted_nodes nodes).*1 -> st_nodes s !! nk = None) ->
    (_ ← (match put_nodes_io s (sorted_nodes nodes) with (s', Ok _) => put_values_io s' (sorted_values values) | r => r end).2;
     Ok (match put_nodes_io s (sorted_nodes nodes) with (s', Ok _) => put_values_io s' (sorted_values values) | r => r end).1) =
    (h ← write_values (st_history s) (sorted_values values); Ok (mkStore (nodes ∪ st_nodes s) (st_stale s) h (st_overwrite s)))).
  { intros Hf. rewrite put_nodes_ok by (first [apply sorted_nodes_nodup|done]). rewrite put_values_io_ok, sorted_nodes_map. done. }
  assert (In : forall nk, nk ∈ (sorted_nodes nodes).*1 <-> is_Some (nodes !! nk)).
  { apply sorted_nodes_in. }
  destruct (st_overwrite s) eqn:Ho; [rewrite orb_true_l; cbn [assert_]; rewrite bind_Ok, Hok by (by left); done|]. rewrite orb_false_l. case_bool_decide as D.
  - cbn [assert_]. rewrite bind_Ok, Hok; [done|]. right. intros nk I. apply In in I. destruct (st_nodes s !! nk) eqn:E; [|done]. exfalso. apply (not_elem_of_empty (C := gset nodekey) nk). rewrite <- D. apply elem_of_intersection. rewrite !elem_of_dom, E. done.
  - apply dom_meets in D as (nk & D1 & D2). pose proof (put_nodes_panic (sorted_nodes nodes) s nk (sorted_nodes_nodup _) Ho (proj2 (In _) D1)) as P.
    destruct (put_nodes_io s (sorted_nodes nodes)) as [s' r]. cbn in P. rewrite P; [done|]. by apply not_eq_None_Some.
Qed.
Theorem C86_write_outcome (s : store) (b : tree_batch) : io_result (write_batch_io s b) = write_tree_update_batch s b.
Proof.
  unfold write_tree_update_batch. rewrite <- C86_node_batch_outcome. unfold io_result, write_batch_io. destruct (write_node_batch_io s (tb_nodes b) (tb_values b)) as [s' [[]| |]]; [|done..]. cbn [fst snd]. rewrite !bind_Ok.
  destruct (sorted_logs_ok (tb_stale b)) as (_ & ND & In). case_bool_decide as D.
  - rewrite put_stale_io_ok; [|done|intros log I J; apply In in I; set_solver]. cbn [fst snd ensure_]. rewrite !bind_Ok. f_equal. f_equal. apply set_eq. intros x. rewrite !elem_of_union, elem_of_list_to_set, In. done.
  - apply set_choose_L in D as [log D]. apply elem_of_intersection in D as [D1 D2]. rewrite (put_stale_io_err _ _ log (proj2 (In _) D1) D2). done.
Qed.
