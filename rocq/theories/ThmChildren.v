(** C54: the array of children with its counter is a map from nibbles. *)
From Verif Require Import Base NodeType NodeFacts ChildrenArr KeyFacts SmtFacts ProofDef ProofFacts Canon OrderFacts.
From Coq Require Import Lia Sorted.
Local Open Scope nat_scope.

(** the array that stands for a map *)
Definition ca_of (m : gmap nibble child) : carr := CArr (map (fun n => m !! n) all_nibbles) (num_children m).

Lemma idx_lookup (n : nibble) : all_nibbles !! nib_idx n = Some n.
Proof. by destruct n as [[] [] [] []]. Qed.
Lemma idx_inj (n m : nibble) : nib_idx n = nib_idx m -> n = m.
Proof. intros E. pose proof (idx_lookup n) as A. rewrite E, idx_lookup in A. by injection A. Qed.
Lemma slot_lookup (m : gmap nibble child) n : map (fun n => m !! n) all_nibbles !! nib_idx n = Some (m !! n).
Proof. by rewrite list_lookup_fmap, idx_lookup. Qed.
Lemma slots_ext (l l' : list (option child)) : length l = 16 -> length l' = 16 -> (forall n, l !! nib_idx n = l' !! nib_idx n) -> l = l'.
Proof.
  intros L L' E. apply list_eq. intros i. destruct (decide (i < 16)) as [Hi|Hi]; [|by rewrite !lookup_ge_None_2 by lia].
  destruct (lookup_lt_is_Some_2 all_nibbles i) as [n En]; [exact Hi|]. replace i with (nib_idx n); [apply E|].
  assert (all_nibbles !! nib_idx n = Some n) by apply idx_lookup. eapply (NoDup_lookup all_nibbles); [apply all_nibbles_nodup|done|done].
Qed.
Lemma slots_insert (m : gmap nibble child) n o : <[nib_idx n := o]> (map (fun n => m !! n) all_nibbles) = map (fun n' => partial_alter (fun _ => o) n m !! n') all_nibbles.
Proof.
  apply slots_ext; [by rewrite insert_length|done|]. intros n'. rewrite slot_lookup. destruct (decide (n = n')) as [<-|N].
  - rewrite list_lookup_insert by (rewrite map_length; apply lookup_lt_is_Some_1; rewrite idx_lookup; eauto). by rewrite lookup_partial_alter.
  - rewrite list_lookup_insert_ne by (intros E; by apply N, idx_inj). by rewrite slot_lookup, lookup_partial_alter_ne.
Qed.
Lemma num_omap (m : gmap nibble child) l : length (omap (fun n => c ← m !! n; Some (n, c)) l) = length (filter (fun n => is_Some (m !! n)) l).
Proof.
  induction l as [|n l IH]; [done|]. cbn [omap list_omap]. rewrite filter_cons. destruct (m !! n) as [c|] eqn:E; cbn [mbind option_bind].
  - rewrite decide_True by eauto. cbn. by rewrite IH.
  - rewrite decide_False by (intros [? ?]; congruence). done.
Qed.
Lemma num_size (m : gmap nibble child) : num_children m = size m.
Proof.
  unfold num_children, children_iter. rewrite num_omap, <- size_dom, <- (size_list_to_set (C := gset nibble)); [|apply NoDup_filter, all_nibbles_nodup].
  f_equal. apply set_eq. intros n. rewrite elem_of_list_to_set, elem_of_list_filter, elem_of_dom. split; [by intros [? _]|]. intros ?. split; [done|apply all_nibbles_complete].
Qed.

Theorem C54_new : ca_new = ca_of ∅.
Proof. reflexivity. Qed.
Theorem C54_insert m n c : ca_insert (ca_of m) n c = Ok (ca_of (<[n := c]> m)).
Proof.
  unfold ca_insert. cbn [ca_slots ca_num ca_of]. rewrite slot_lookup. cbn [unwrap]. rewrite bind_Ok, slots_insert, !num_size. unfold ca_of. f_equal. f_equal. rewrite num_size.
  destruct (m !! n) eqn:E; [by rewrite map_size_insert_Some by eauto|by rewrite map_size_insert_None].
Qed.
Theorem C54_remove m n : ca_remove (ca_of m) n = Ok (ca_of (delete n m)).
Proof.
  unfold ca_remove. cbn [ca_slots ca_num ca_of]. rewrite slot_lookup. cbn [unwrap]. rewrite bind_Ok, slots_insert, !num_size. unfold ca_of.
  destruct (m !! n) eqn:E.
  - assert (S : size m = S (size (delete n m))). { rewrite <- (insert_delete m n c E) at 1. apply map_size_insert_None, lookup_delete. }
    rewrite S, bind_Ok, num_size. done.
  - rewrite bind_Ok, num_size, map_size_delete, E. done.
Qed.
Theorem C54_get m n : ca_get (ca_of m) n = Ok (m !! n).
Proof. unfold ca_get. cbn [ca_of ca_slots]. by rewrite slot_lookup. Qed.
Theorem C54_num m : ca_num_children (ca_of m) = size m.
Proof. apply num_size. Qed.
Theorem C54_is_empty m : ca_is_empty (ca_of m) = true <-> m = ∅.
Proof. unfold ca_is_empty. cbn [ca_of ca_num]. rewrite num_size, Nat.eqb_eq. apply map_size_empty_iff. Qed.
Theorem C54_values m : ca_values (ca_of m) = children_values m.
Proof. unfold ca_values, children_values, children_iter. cbn [ca_of ca_slots]. induction all_nibbles as [|n l IH]; [done|]. cbn. destruct (m !! n); cbn; by rewrite IH. Qed.
Theorem C54_iter m : ca_iter (ca_of m) = Ok (children_iter m).
Proof.
  unfold ca_iter, children_iter. cbn [ca_of ca_slots].
  assert (G : forall l i, (forall j n, l !! j = Some n -> (i + N.of_nat j = nib_to_N n)%N) ->
    enum_slots i (map (fun n => m !! n) l) = Ok (omap (fun n => c ← m !! n; Some (n, c)) l)).
  { induction l as [|n l IH]; intros i Hi; [done|]. cbn [map enum_slots omap list_omap].
    assert (Hi' : forall j n', l !! j = Some n' -> (i + 1 + N.of_nat j = nib_to_N n')%N) by (intros j n' E; specialize (Hi (S j) n' E); lia).
    specialize (Hi 0 n eq_refl). assert (i = nib_to_N n) as -> by lia.
    destruct (m !! n) as [c|]; cbn [mbind option_bind]; [|by apply IH]. unfold nib_from_u8. rewrite (proj2 (N.ltb_lt _ _) (nib_to_N_lt n)), bind_Ok, IH by done. by rewrite bind_Ok, nib_of_to_N. }
  apply G. intros j n E. do 16 (destruct j as [|j]; [injection E as <-; reflexivity|]). done.
Qed.
(** iteration visits each occupied nibble once, in increasing order *)
Theorem C54_iter_spec m : StronglySorted (fun x y => (nib_to_N x.1 < nib_to_N y.1)%N) (children_iter m) /\ forall n c, (n, c) ∈ children_iter m <-> m !! n = Some c.
Proof.
  split.
  - unfold children_iter. pose proof all_nibbles_sorted as S. induction S as [|n l S IH F]; [constructor|]. cbn [omap list_omap]. destruct (m !! n) as [c|]; [|done]. cbn. constructor; [done|].
    apply List.Forall_forall. intros [n' c'] I%elem_of_list_In. apply elem_of_list_omap in I as (n2 & I & E). destruct (m !! n2); [|done]. injection E as <- _. cbn.
    rewrite List.Forall_forall in F. apply elem_of_list_In, F in I. unfold nib_lt in I. lia.
  - intros n c. unfold children_iter. rewrite elem_of_list_omap. split.
    + intros (n' & _ & E). destruct (m !! n') eqn:En; [|done]. injection E as <- <-. done.
    + intros E. exists n. split; [apply all_nibbles_complete|]. by rewrite E.
Qed.
(** Any sequence of operations on a new array: none panics and the outcome is the array of the map that the same sequence makes. *)
Inductive cop : Type := CInsert (n : nibble) (c : child) | CRemove (n : nibble).
Definition cop_map (m : gmap nibble child) (o : cop) : gmap nibble child := match o with CInsert n c => <[n := c]> m | CRemove n => delete n m end.
Fixpoint cop_run (a : carr) (os : list cop) : outcome carr :=
  match os with
  | [] => Ok a
  | o :: os' => a ← match o with CInsert n c => ca_insert a n c | CRemove n => ca_remove a n end; cop_run a os'
  end.
Theorem C54_sequences (os : list cop) : cop_run ca_new os = Ok (ca_of (fold_left cop_map os ∅)).
Proof.
  rewrite C54_new. generalize (∅ : gmap nibble child) as m. induction os as [|[n c|n] os IH]; intros m; [done|..]; cbn [cop_run fold_left cop_map].
  - rewrite C54_insert, bind_Ok. apply IH.
  - rewrite C54_remove, bind_Ok. apply IH.
Qed.
Example demo_children (c : child) : exists a, cop_run ca_new [CInsert (Nib true false false true) c; CInsert (Nib false false false true) c; CRemove (Nib true false false true); CRemove (Nib true true false true)] = Ok a /\ ca_num a = 1 /\ ca_values a = [c].
Proof. eexists. split; [reflexivity|]. done. Qed.
