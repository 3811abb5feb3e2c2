(** Two stores with different ranges of versions kept in one: the operations on one of them do not disturb the other.  For C85. *)
From Coq Require Import Strings.String.
From Verif Require CommitMono.
From Verif Require Import Base Spec SpecOrder NodeType ProofDef TreeCache Tree Mock Driver KeyFacts SmtFacts ProofFacts NodeFacts Canon ReadFacts PutFacts InsertFacts PutTop VersionFacts ValueFacts StoreFacts DriverFacts DriverFacts2 ThmStore2 ThmCrash ThmPurged ThmVersions.
From Verif Require ThmOver ThmMockSteps.
From Coq Require Import Lia.
Notation layh := ThmOver.layh.

Definition beside (t s : store) : store := mkStore (st_nodes s ∪ st_nodes t) (st_stale s ∪ st_stale t) (layh (st_history t) (st_history s)) (st_overwrite t).
(** everything of [t] is of versions before [u], everything of [s] of versions from [u] on *)
Record below (u : version) (t : store) : Prop := {
  be_nodes : forall nk, is_Some (st_nodes t !! nk) -> (nk.1 < u)%N;
  be_stale : forall log, log ∈ st_stale t -> (log.2.1 < u)%N;
  be_hist : forall k a, a ∈ default [] (st_history t !! k) -> (a.1 < u)%N;
  be_ov : st_overwrite t = false }.
Record above (u : version) (s : store) : Prop := {
  ab_nodes : forall nk, is_Some (st_nodes s !! nk) -> (u <= nk.1)%N;
  ab_stale : forall log, log ∈ st_stale s -> (u <= log.2.1)%N;
  ab_hist : forall k a, a ∈ default [] (st_history s !! k) -> (u <= a.1)%N;
  ab_ov : st_overwrite s = false }.
Lemma below_le u u' t : below u t -> (u <= u')%N -> below u' t.
Proof. intros [A B C D] L. split; [intros nk X%A; lia|intros log X%B; lia|intros k a X%C; lia|done]. Qed.
Lemma beside_empty_l s : st_overwrite s = false -> beside store_empty s = s.
Proof.
  intros E. destruct s as [n st h o]. cbn in E. subst o. unfold beside. cbn. f_equal; [apply (right_id_L ∅ (∪))|apply (right_id_L ∅ (∪))|].
  apply map_eq. intros k. rewrite ThmOver.layh_lookup, lookup_empty. done.
Qed.
Lemma beside_empty_r t : beside t store_empty = t.
Proof.
  destruct t as [n st h o]. unfold beside. cbn. f_equal; [apply (left_id_L ∅ (∪))|apply (left_id_L ∅ (∪))|].
  apply map_eq. intros k. rewrite ThmOver.layh_lookup, lookup_empty. by destruct (h !! k).
Qed.
Section beside.
Context (u : version) (t s : store) (T : below u t) (S : above u s).
Lemma beside_top nk nd : st_nodes s !! nk = Some nd -> st_nodes (beside t s) !! nk = Some nd.
Proof. intros E. cbn. by apply lookup_union_Some_l. Qed.
Lemma beside_low nk nd : st_nodes t !! nk = Some nd -> st_nodes (beside t s) !! nk = Some nd.
Proof.
  intros E. cbn. apply lookup_union_Some_raw. right. split; [|done]. apply eq_None_not_Some. intros X%(ab_nodes _ _ S).
  assert (nk.1 < u)%N by (apply (be_nodes _ _ T); by eexists). lia.
Qed.
Lemma beside_node nk nd : st_nodes (beside t s) !! nk = Some nd -> st_nodes s !! nk = Some nd \/ st_nodes t !! nk = Some nd.
Proof. cbn. intros [E|[_ E]]%lookup_union_Some_raw; auto. Qed.
Lemma find_app w a b : find_value w (rev (a ++ b)) = match List.find (fun e => (e.1 <=? w)%N) (rev b) with Some e => e.2 | None => find_value w (rev a) end.
Proof. rewrite rev_app_distr. induction (rev b) as [|[v x] l IH]; cbn [app find_value List.find fst]; [done|]. by destruct (v <=? w)%N. Qed.
Lemma beside_value_low w k : (w < u)%N -> store_value (beside t s) w k = store_value t w k.
Proof.
  intros L. unfold store_value. cbn. rewrite ThmOver.layh_lookup. pose proof (ab_hist _ _ S k) as A.
  assert (X : forall l : list (version * option value), (forall a, a ∈ l -> (u <= a.1)%N) -> List.find (fun e => (e.1 <=? w)%N) (rev l) = None).
  { intros l Hl. destruct (List.find _ (rev l)) as [e|] eqn:E; [|done]. apply List.find_some in E as [I E]. apply in_rev, elem_of_list_In, Hl in I. apply N.leb_le in E. lia. }
  destruct (st_history t !! k) as [lt|], (st_history s !! k) as [l|]; cbn in A; [|done| |done].
  - by rewrite find_app, X.
  - pose proof (find_app w [] l) as E. cbn [app] in E. by rewrite E, X.
Qed.
(** the newest entry in [s], if there is one, else the newest in [t] *)
Lemma beside_value w k : store_value (beside t s) w k = match List.find (fun e => (e.1 <=? w)%N) (rev (default [] (st_history s !! k))) with Some e => e.2 | None => store_value t w k end.
Proof.
  unfold store_value. cbn. rewrite ThmOver.layh_lookup. destruct (st_history t !! k) as [lt|], (st_history s !! k) as [l|]; cbn [default]; [apply find_app|done| |done].
  pose proof (find_app w [] l) as E. cbn [app] in E. exact E.
Qed.
Lemma find_value_some w l : find_value w l = match List.find (fun e => (e.1 <=? w)%N) l with Some e => e.2 | None => None end.
Proof. induction l as [|[v x] l IH]; cbn [find_value List.find fst]; [done|]. by destruct (v <=? w)%N. Qed.
Lemma store_value_find w k : store_value s w k = match List.find (fun e => (e.1 <=? w)%N) (rev (default [] (st_history s !! k))) with Some e => e.2 | None => None end.
Proof. unfold store_value. destruct (st_history s !! k) as [l|]; [apply find_value_some|done]. Qed.
Lemma beside_value_top w k x : store_value s w k = Some x -> store_value (beside t s) w k = Some x.
Proof. rewrite beside_value, store_value_find. by destruct (List.find _ _). Qed.
Lemma beside_value_or w k : store_value (beside t s) w k = store_value s w k \/ store_value s w k = None /\ store_value (beside t s) w k = store_value t w k.
Proof. rewrite beside_value, store_value_find. destruct (List.find _ _); [by left|by right]. Qed.
End beside.

(** *** writing into the upper store *)
Lemma put_value_has h w k x h' : put_value_hist h w k x = Ok h' -> (exists y, (w, y) ∈ default [] (h' !! k)) /\ forall k' a, a ∈ default [] (h !! k') -> exists y, (a.1, y) ∈ default [] (h' !! k').
Proof.
  unfold put_value_hist. intros E.
  assert (X : forall l, h' = <[ k := l ]> h -> (exists y, (w, y) ∈ l) -> (forall a, a ∈ default [] (h !! k) -> exists y, (a.1, y) ∈ l) -> (exists y, (w, y) ∈ default [] (h' !! k)) /\ forall k' a, a ∈ default [] (h !! k') -> exists y, (a.1, y) ∈ default [] (h' !! k')).
  { intros l -> A B. rewrite lookup_insert. split; [done|]. intros k' a I. destruct (decide (k' = k)) as [->|N]; [rewrite lookup_insert; by apply B|]. rewrite lookup_insert_ne by done. exists a.2. by destruct a. }
  assert (Z : forall (l : list (version * option value)) a, a ∈ l -> exists y, (a.1, y) ∈ l ++ [(w, x)]) by (intros l a I; exists a.2; apply elem_of_app; left; by destruct a).
  destruct (h !! k) as [l|] eqn:Ek.
  - destruct (rev l) as [|[lv y] r] eqn:Er.
    + injection E as E. eapply X; [symmetry; exact E|exists x; apply elem_of_app; right; by apply elem_of_list_singleton|intros a I; by apply Z].
    + assert (El : l = rev r ++ [(lv, y)]) by (rewrite <- (rev_involutive l), Er; done). destruct (N.compare_spec w lv) as [Ew|Ew|Ew]; [|done|]; injection E as E.
      * subst lv. eapply X; [symmetry; exact E|exists x; apply elem_of_app; right; by apply elem_of_list_singleton|]. cbn [default]. intros a I. rewrite El in I. apply elem_of_app in I as [I|I%elem_of_list_singleton].
        -- by apply Z.
        -- exists x. apply elem_of_app. right. subst a. by apply elem_of_list_singleton.
      * eapply X; [symmetry; exact E|exists x; apply elem_of_app; right; by apply elem_of_list_singleton|intros a I; by apply Z].
  - injection E as E. eapply X; [symmetry; exact E|exists x; by apply elem_of_list_singleton|]. intros a I. by apply elem_of_nil in I.
Qed.
Lemma write_values_keep l : forall h h', write_values h l = Ok h' -> forall k a, a ∈ default [] (h !! k) -> exists y, (a.1, y) ∈ default [] (h' !! k).
Proof.
  induction l as [|[[w k0] x] l IH]; intros h h' E k a I; cbn [write_values] in E; [injection E as <-; exists a.2; by destruct a|].
  destruct (put_value_hist h w k0 x) as [h1| |] eqn:E1; [|done..]. rewrite bind_Ok in E. apply put_value_has in E1 as [_ K]. destruct (K k a I) as [y Y]. destruct (IH _ _ E k _ Y) as [y' Y']. by exists y'.
Qed.
Lemma write_values_has l : forall h h', write_values h l = Ok h' -> forall w k x, ((w, k), x) ∈ l -> exists y, (w, y) ∈ default [] (h' !! k).
Proof.
  induction l as [|[[w0 k0] x0] l IH]; intros h h' E w k x I; cbn [write_values] in E; [by apply elem_of_nil in I|].
  destruct (put_value_hist h w0 k0 x0) as [h1| |] eqn:E1; [|done..]. rewrite bind_Ok in E. apply elem_of_cons in I as [[= <- <- <-]|I]; [|by eapply IH].
  apply put_value_has in E1 as [[y Y] _]. destruct (write_values_keep _ _ _ E k _ Y) as [y' Y']. by exists y'.
Qed.
Lemma lay_values u t l : below u t -> forall h h', (forall e, e ∈ l -> (u <= e.1.1)%N) -> write_values h l = Ok h' -> write_values (layh (st_history t) h) l = Ok (layh (st_history t) h').
Proof.
  intros T. induction l as [|[[w k] x] l IH]; intros h h' Ev; cbn [write_values]; [by intros [= <-]|]. assert (L : (u <= w)%N) by (apply (Ev ((w, k), x)); by left).
  destruct (put_value_hist h w k x) as [h1| |] eqn:E; [rewrite bind_Ok|done|done]. rewrite (ThmOver.lay_put w t) with (h' := h1); [|intros k' a I; pose proof (be_hist _ _ T k' a I); lia|done]. rewrite bind_Ok. apply IH. intros e He. apply Ev. by right.
Qed.
Lemma write_beside u t s b s' : below u t -> above u s' -> st_overwrite s = false -> write_tree_update_batch s b = Ok s' -> write_tree_update_batch (beside t s) b = Ok (beside t s').
Proof.
  intros T A Ho. unfold write_tree_update_batch, write_node_batch. rewrite Ho. cbn [orb]. intros E.
  destruct (bool_decide (dom (tb_nodes b) ∩ dom (st_nodes s) = ∅)) eqn:Ed; [|done]. cbn [assert_] in E. rewrite bind_Ok in E. apply bool_decide_eq_true in Ed.
  destruct (write_values (st_history s) (sorted_values (tb_values b))) as [h| |] eqn:Ew; [|done..]. rewrite !bind_Ok in E. cbn [st_nodes st_stale st_history st_overwrite] in E.
  destruct (bool_decide (tb_stale b ∩ st_stale s = ∅)) eqn:Es; [|done]. cbn [ensure_] in E. rewrite bind_Ok in E. apply bool_decide_eq_true in Es. injection E as <-.
  cbn [beside st_nodes st_stale st_history st_overwrite]. rewrite (be_ov _ _ T). cbn [orb].
  rewrite (bool_decide_eq_true_2 (dom (tb_nodes b) ∩ dom (st_nodes s ∪ st_nodes t) = ∅)).
  2: { apply set_eq. intros nk. rewrite elem_of_intersection, dom_union_L, elem_of_union. split; [|set_solver]. intros [E1 [E2|E2]]; [set_solver|]. rewrite elem_of_dom in E1, E2. apply (be_nodes _ _ T) in E2.
       assert (u <= nk.1)%N by (apply (ab_nodes _ _ A); cbn; apply lookup_union_is_Some; by left). lia. }
  cbn [assert_]. rewrite bind_Ok. rewrite (lay_values u t _ T _ h); [|intros [[w k] x] I; cbn; destruct (write_values_has _ _ _ Ew w k x I) as [y Y]; exact (ab_hist _ _ A k (w, y) Y)|done].
  rewrite !bind_Ok. cbn [st_nodes st_stale st_history st_overwrite].
  rewrite (bool_decide_eq_true_2 (tb_stale b ∩ (st_stale s ∪ st_stale t) = ∅)).
  2: { apply set_eq. intros log. split; [|set_solver]. rewrite elem_of_intersection, elem_of_union. intros [E1 [E2|E2]]; [set_solver|]. apply (be_stale _ _ T) in E2. assert (u <= log.2.1)%N by (apply (ab_stale _ _ A); cbn; set_solver). lia. }
  cbn [ensure_]. rewrite bind_Ok. unfold beside. cbn. by rewrite (assoc_L (∪)), (be_ov _ _ T), (assoc_L (∪)).
Qed.
(** *** purging *)
Lemma purge_top u t l : below u t -> forall s s', above u s -> (forall log, log ∈ l -> (u <= log.2.1)%N) -> purge_loop s l = Ok s' -> purge_loop (beside t s) l = Ok (beside t s').
Proof.
  intros T. induction l as [|log l IH]; intros s s' A Hl; cbn [purge_loop]; [by intros [= <-]|]. destruct (st_nodes s !! log.2) as [nd|] eqn:E; [|done]. cbn [ensure_]. rewrite bind_Ok.
  rewrite (beside_top t s _ nd E). cbn [ensure_]. rewrite bind_Ok. intros P. assert (L : (u <= log.2.1)%N) by (apply Hl; left).
  rewrite <- (IH _ s' ) with (2 := fun x I => Hl x (elem_of_list_further _ _ _ I)) (3 := P).
  - f_equal. unfold beside. cbn. f_equal.
    + rewrite delete_union. f_equal. apply delete_notin. apply eq_None_not_Some. intros X%(be_nodes _ _ T). lia.
    + apply set_eq. intros x. rewrite elem_of_difference, !elem_of_union, elem_of_difference, elem_of_singleton. split; [tauto|]. intros [[I N]|I]; [tauto|]. split; [tauto|]. intros ->. apply (be_stale _ _ T) in I. lia.
  - destruct A as [A1 A2 A3 A4]. split; cbn; [intros nk X; apply A1; destruct (decide (nk = log.2)) as [->|N]; [rewrite lookup_delete in X; by destruct X|by rewrite lookup_delete_ne in X]|intros x X; apply A2; set_solver|done|done].
Qed.
Lemma purge_low u s l : above u s -> forall t t', below u t -> (forall log, log ∈ l -> (log.2.1 < u)%N) -> purge_loop t l = Ok t' -> purge_loop (beside t s) l = Ok (beside t' s).
Proof.
  intros A. induction l as [|log l IH]; intros t t' T Hl; cbn [purge_loop]; [by intros [= <-]|]. destruct (st_nodes t !! log.2) as [nd|] eqn:E; [|done]. cbn [ensure_]. rewrite bind_Ok.
  rewrite (beside_low u t s T A _ nd E). cbn [ensure_]. rewrite bind_Ok. intros P. assert (L : (log.2.1 < u)%N) by (apply Hl; left).
  rewrite <- (IH _ t' ) with (2 := fun x I => Hl x (elem_of_list_further _ _ _ I)) (3 := P).
  - f_equal. unfold beside. cbn. f_equal.
    + rewrite delete_union. f_equal. apply delete_notin. apply eq_None_not_Some. intros X%(ab_nodes _ _ A). lia.
    + apply set_eq. intros x. rewrite elem_of_difference, !elem_of_union, elem_of_difference, elem_of_singleton. split; [tauto|]. intros [I|[I N]]; [|tauto]. split; [tauto|]. intros ->. apply (ab_stale _ _ A) in I. lia.
  - destruct T as [A1 A2 A3 A4]. split; cbn; [intros nk X; apply A1; destruct (decide (nk = log.2)) as [->|N]; [rewrite lookup_delete in X; by destruct X|by rewrite lookup_delete_ne in X]|intros x X; apply A2; set_solver|done|done].
Qed.
Lemma purge_loop_app a b : forall s, purge_loop s (a ++ b) = s1 ← purge_loop s a; purge_loop s1 b.
Proof. induction a as [|log a IH]; intros s; cbn [app purge_loop]; [by rewrite bind_Ok|]. destruct (ensure_ _ _) as [[]| |]; [rewrite !bind_Ok; apply IH|done..]. Qed.
Lemma purge_loop_le l : forall s s', purge_loop s l = Ok s' -> (forall nk, is_Some (st_nodes s' !! nk) -> is_Some (st_nodes s !! nk)) /\ st_stale s' ⊆ st_stale s /\ st_history s' = st_history s /\ st_overwrite s' = st_overwrite s.
Proof.
  induction l as [|log l IH]; intros s s'; cbn [purge_loop]; [by intros [= <-]|]. destruct (ensure_ _ _) as [[]| |]; [rewrite bind_Ok|done..]. intros P. apply IH in P as (A & B & C & D). cbn in *. split; [|set_solver].
  intros nk X. apply A in X. destruct (decide (nk = log.2)) as [->|N]; [rewrite lookup_delete in X; by destruct X|by rewrite lookup_delete_ne in X].
Qed.
Lemma below_purge u t l t' : below u t -> purge_stale_nodes t l = Ok t' -> below u t'.
Proof.
  intros [A B C D] (P1 & P2 & P3 & P4)%purge_loop_le. split; [intros nk X; by apply A, P1|intros log X; apply B; set_solver|intros k a; rewrite P3; apply C|congruence].
Qed.
Lemma above_purge u t l t' : above u t -> purge_stale_nodes t l = Ok t' -> above u t'.
Proof.
  intros [A B C D] (P1 & P2 & P3 & P4)%purge_loop_le. split; [intros nk X; by apply A, P1|intros log X; apply B; set_solver|intros k a; rewrite P3; apply C|congruence].
Qed.
Lemma purge_beside u t s l t' s' : below u t -> above u s -> purge_stale_nodes t l = Ok t' -> purge_stale_nodes s l = Ok s' -> purge_stale_nodes (beside t s) l = Ok (beside t' s').
Proof.
  intros T A Pt Ps. unfold purge_stale_nodes. cbn [beside st_stale].
  assert (P : elements (filter (fun log : version * nodekey => (log.1 <= l)%N) (st_stale s ∪ st_stale t)) ≡ₚ elements (filter (fun log : version * nodekey => (log.1 <= l)%N) (st_stale s)) ++ elements (filter (fun log : version * nodekey => (log.1 <= l)%N) (st_stale t))).
  { apply NoDup_Permutation; [apply NoDup_elements|apply NoDup_app; split; [apply NoDup_elements|]; split; [|apply NoDup_elements]|].
    - intros log. rewrite !elem_of_elements, !elem_of_filter. intros [_ I] [_ J]. apply (ab_stale _ _ A) in I. apply (be_stale _ _ T) in J. lia.
    - intros log. rewrite elem_of_app, !elem_of_elements, !elem_of_filter, elem_of_union. tauto. }
  fold (beside t s). rewrite (ThmMockSteps.purge_loop_perm _ _ P), purge_loop_app.
  rewrite (purge_top u t _ T s s' A); [rewrite bind_Ok| |exact Ps].
  - eapply (purge_low u); [by eapply above_purge|done| |exact Pt]. intros log. rewrite elem_of_elements, elem_of_filter. intros [_ I]. by apply (be_stale _ _ T).
  - intros log. rewrite elem_of_elements, elem_of_filter. intros [_ I]. by apply (ab_stale _ _ A).
Qed.
Lemma purge_loop_needs l : forall s s' log, purge_loop s l = Ok s' -> log ∈ l -> is_Some (st_nodes s !! log.2).
Proof.
  induction l as [|lg l IH]; intros s s' log P I; [by apply elem_of_nil in I|]. cbn [purge_loop] in P. destruct (st_nodes s !! lg.2) as [nd|] eqn:E; [|done]. cbn [ensure_] in P. rewrite bind_Ok in P.
  apply elem_of_cons in I as [->|I]; [by eexists|]. destruct (IH _ _ _ P I) as [x X]. cbn in X. destruct (decide (log.2 = lg.2)) as [Z|N]; [rewrite Z, lookup_delete in X; done|]. rewrite lookup_delete_ne in X by done. by eexists.
Qed.
