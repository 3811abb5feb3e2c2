(** C79: what queries and commits cost: the number of requests to the store and the size of the result. *)
From Coq Require Import Strings.String.
From Verif Require Import Base Spec NodeType ProofDef TreeCache Tree BatchTree Exclusion Iterator ProofFacts KeyFacts PutFacts Requests RequestFacts Mock Driver ThmProof Demo Toy.
From Coq Require Import Lia.

(** *** Specification: the requests made.  [ran p l o]: the program may make the requests [l] and end with [o]; every answer is possible, right or wrong. *)
Inductive request : Type := RNode (nk : nodekey) | RValue (w : version) (k : key).
Inductive ran {A} : prog A -> list request -> outcome A -> Prop :=
| ran_done o : ran (Done o) [] o
| ran_node nk k r l o : ran (k r) l o -> ran (AskNode nk k) (RNode nk :: l) o
| ran_value w x k r l o : ran (k r) l o -> ran (AskValue w x k) (RValue w x :: l) o.
Definition nodes_asked (l : list request) : nat := length (List.filter (fun r => match r with RNode _ => true | _ => false end) l).
Definition values_asked (l : list request) : nat := length (List.filter (fun r => match r with RValue _ _ => true | _ => false end) l).
(** at most [a] requests for nodes and [b] for values *)
Definition at_most {A} (p : prog A) (a b : nat) : Prop := forall l o, ran p l o -> nodes_asked l <= a /\ values_asked l <= b.

(** *** Counting *)
(** [Q]: of all results *)
Inductive asks {A} (Q : A -> Prop) : prog A -> nat -> nat -> Prop :=
| asks_done o a b : (forall y, o = Ok y -> Q y) -> asks Q (Done o) a b
| asks_node nk k a b : (forall r, asks Q (k r) a b) -> asks Q (AskNode nk k) (S a) b
| asks_value w x k a b : (forall r, asks Q (k r) a b) -> asks Q (AskValue w x k) a (S b).
Notation any := (fun _ => True).
Lemma asks_at_most {A} Q (p : prog A) a b : asks Q p a b -> at_most p a b.
Proof.
  intros S l o R. revert a b S. induction R as [o|nk k r l o R IH|w x k r l o R IH]; intros a b S; inversion S as [|nk' k' a' b' Hk|w' x' k' a' b' Hk]; subst; unfold nodes_asked, values_asked in *; cbn [List.filter length]; [lia|..].
  - specialize (IH _ _ (Hk r)). lia.
  - specialize (IH _ _ (Hk r)). lia.
Qed.
Lemma asks_mono {A} (Q Q' : A -> Prop) (p : prog A) a b : asks Q p a b -> forall a' b', a <= a' -> b <= b' -> (forall y, Q y -> Q' y) -> asks Q' p a' b'.
Proof.
  induction 1 as [o a b Ho|nk k a b _ IH|w x k a b _ IH]; intros a' b' La Lb HQ; [constructor; eauto|..].
  - destruct a' as [|a']; [lia|]. constructor. intros r. apply IH; [lia|lia|done].
  - destruct b' as [|b']; [lia|]. constructor. intros r. apply IH; [lia|lia|done].
Qed.
Lemma asks_le {A} (Q : A -> Prop) (p : prog A) a b a' b' : asks Q p a b -> a <= a' -> b <= b' -> asks Q p a' b'.
Proof. intros S La Lb. by eapply asks_mono. Qed.
Lemma asks_bind {A B} (Q : A -> Prop) (Q' : B -> Prop) (p : prog A) (f : A -> prog B) a b a' b' : asks Q p a b -> (forall y, Q y -> asks Q' (f y) a' b') -> asks Q' (p ≫= f) (a + a') (b + b').
Proof.
  intros S Hf. induction S as [o a b Ho|nk k a b _ IH|w x k a b _ IH].
  - destruct o as [y|e|]; [|by constructor..]. eapply asks_le; [by apply Hf, Ho|lia|lia].
  - change (AskNode nk k ≫= f) with (AskNode nk (fun r => k r ≫= f)). cbn [Nat.add]. by constructor.
  - change (AskValue w x k ≫= f) with (AskValue w x (fun r => k r ≫= f)). cbn [Nat.add]. by constructor.
Qed.
Lemma asks_step a1 b1 a2 b2 {A B} (Q : A -> Prop) (Q' : B -> Prop) (p : prog A) (f : A -> prog B) a b : asks Q p a1 b1 -> (forall y, Q y -> asks Q' (f y) a2 b2) -> a1 + a2 <= a -> b1 + b2 <= b -> asks Q' (p ≫= f) a b.
Proof. intros S Hf La Lb. eapply asks_le; [by eapply asks_bind|done|done]. Qed.
Lemma asks_pure {A B} (Q' : B -> Prop) (o : outcome A) (f : A -> prog B) a b : (forall y, o = Ok y -> asks Q' (f y) a b) -> asks Q' (Done o ≫= f) a b.
Proof. intros Hf. destruct o as [y|e|]; [by apply Hf|by constructor..]. Qed.
Lemma asks_any {A} (o : outcome A) a b : asks any (Done o) a b.
Proof. by constructor. Qed.

Lemma asks_ok {A} (Q : A -> Prop) y a b : Q y -> asks Q (Done (Ok y)) a b.
Proof. intros Hy. constructor. by intros ? [= <-]. Qed.
Lemma a_req_e e me nk : asks any (req_node_e e me nk) 1 0.
Proof. constructor. intros r. apply asks_any. Qed.
Lemma a_req nk : asks any (req_node nk) 1 0.
Proof. apply a_req_e. Qed.
Lemma a_req_at top v nk : asks any (req_at top v nk) 1 0.
Proof. destruct top; apply a_req_e. Qed.
Lemma a_req_unwrap nk : asks any (req_node_unwrap nk) 1 0.
Proof. constructor. intros r. apply asks_any. Qed.
Lemma a_req_option nk : asks any (req_node_option nk) 1 0.
Proof. constructor. intros r. apply asks_any. Qed.
Lemma a_req_value w k : asks any (req_value w k) 0 1.
Proof. constructor. intros r. apply asks_any. Qed.

Section sib.
Context (H : list byte -> bytes32) (rn : nodekey -> prog node) (Hrn : forall nk, asks any (rn nk) 1 0).
Lemma a_build nk i s h bm : asks any (build_sibling_p H rn nk i s h bm) 1 0.
Proof.
  unfold build_sibling_p. apply asks_pure. intros rb _. destruct (_ =? 0)%N; [apply asks_any|]. destruct (has_only_child _ _ _); [|apply asks_any].
  apply asks_pure. intros n _. apply asks_pure. intros c _. apply (asks_bind any any _ _ 1 0 0 0); [apply Hrn|]. intros nd _. apply asks_any.
Qed.
Lemma a_siblings nk i n only bm hs : forall sibs, asks (fun r => length r.2 <= length sibs + hs) (siblings_loop_p H rn nk i n only bm hs sibs) hs 0.
Proof.
  induction hs as [|h IH]; intros sibs; cbn [siblings_loop_p]; [by constructor|]. apply (asks_bind any _ _ _ 1 0 h 0); [apply a_build|]. intros s _. cbn zeta.
  assert (L : length (sibs ++ [s]) = S (length sibs)) by (rewrite app_length; cbn; lia). apply asks_pure. intros rb _.
  destruct (_ =? 0)%N; [apply asks_ok; cbn [snd]; lia|]. destruct (only && _); [do 2 (apply asks_pure; intros ? _); apply asks_ok; cbn [snd]; lia|].
  destruct (negb only && _); [apply asks_pure; intros c _; apply asks_ok; cbn [snd]; lia|]. eapply asks_mono; [apply IH|lia|lia|]. intros y Hy. cbv beta in *. lia.
Qed.
Lemma a_child_siblings' nk i n only : asks (fun r => length r.2 <= 4) (child_siblings_p H rn nk i n only) 4 0.
Proof. unfold child_siblings_p. apply asks_pure. intros bm _. eapply asks_mono; [apply a_siblings|lia|lia|]. intros y Hy. exact Hy. Qed.
Lemma a_child_siblings nk i n only : asks any (child_siblings_p H rn nk i n only) 4 0.
Proof. eapply asks_mono; [apply a_child_siblings'|lia|lia|done]. Qed.
End sib.

Section queries.
Context (H : list byte -> bytes32).
Lemma a_gwp_loop k v rem : forall top nk sibs, asks (fun y => length (p_siblings y.2) <= length sibs + 4 * length rem) (gwp_loop_p H k v rem top nk sibs) (1 + 5 * length rem) 1.
Proof.
  assert (L : forall l sibs a m, asks (fun y => length (p_siblings y.2) <= length sibs + m) (x ← (if decide (ln_key l = k) then x ← req_value v (ln_key l); Done (Ok (Some x)) else Done (Ok None)); Done (Ok (x, SMProof (Some l) (rev sibs)))) a 1).
  { intros l sibs a m. apply (asks_step 0 1 0 0 any); [|intros x _; constructor; intros y [= <-]; cbn [snd p_siblings]; rewrite rev_length; lia|lia|lia]. case_decide; [|apply asks_any].
    apply (asks_step 0 1 0 0 any); [apply a_req_value|intros x _; apply asks_any|lia|lia]. }
  assert (N : forall (sibs : list smnode) (top : bool) a m, asks (fun y => length (p_siblings y.2) <= length sibs + m) (Done (if top then Ok (@None value, SMProof None []) else Err (EOther "Non-root null node exists"))) a 1).
  { intros sibs top a m. constructor. intros y. destruct top; [|done]. intros [= <-]. cbn. lia. }
  induction rem as [|n rem IH]; intros top nk sibs; cbn [gwp_loop_p length].
  - apply (asks_step 1 0 0 1 any); [apply a_req_at| |lia|lia]. intros [|i|l] _; [apply N|by constructor|apply L].
  - apply (asks_step 1 0 (5 * S (length rem)) 1 any); [apply a_req_at| |lia|lia]. intros [|i|l] _; [apply N| |apply L].
    apply (asks_step 4 0 (1 + 5 * length rem) 1 (fun r => length r.2 <= 4)); [apply a_child_siblings'; intros; apply a_req_unwrap| |lia|lia]. intros [[ck|] s] Ls; cbn [snd] in Ls; cbn zeta.
    + eapply asks_mono; [apply IH|lia|lia|]. intros y Hy. cbv beta in Hy. rewrite app_length in Hy. lia.
    + constructor. intros y [= <-]. cbn [snd p_siblings]. rewrite rev_length, app_length. lia.
Qed.
Lemma a_gwp' k v : asks (fun y => length (p_siblings y.2) <= 256) (get_with_proof_p H k v) 321 1.
Proof. unfold get_with_proof_p. eapply asks_mono; [apply a_gwp_loop| |lia|]; rewrite key_nibbles_length; [lia|]. intros y Hy. exact Hy. Qed.
Lemma a_gwp k v : asks any (get_with_proof_p H k v) 321 1.
Proof. eapply asks_mono; [apply a_gwp'|lia|lia|done]. Qed.
Lemma a_range k v : asks any (get_range_proof_p H k v) 321 1.
Proof. unfold get_range_proof_p. apply (asks_step 321 1 0 0 any); [apply a_gwp| |lia|lia]. intros [x p] _. apply asks_any. Qed.
Lemma a_root_hash v : asks any (get_root_hash_p H v) 1 0.
Proof. unfold get_root_hash_p. apply (asks_step 1 0 0 0 any); [apply a_req_option| |lia|lia]. intros; apply asks_any. Qed.
Lemma a_root_hash_option v : asks any (get_root_hash_option_p H v) 1 0.
Proof. unfold get_root_hash_option_p. apply (asks_step 1 0 0 0 any); [apply a_req_option| |lia|lia]. intros; apply asks_any. Qed.
Lemma a_leaf_count v : asks any (get_leaf_count_p v) 1 0.
Proof. unfold get_leaf_count_p. apply (asks_step 1 0 0 0 any); [apply a_req_option| |lia|lia]. intros; apply asks_any. Qed.
Lemma a_extreme f : forall d v nk e, asks any (extreme_loop_p f d v nk e) f 0.
Proof.
  induction f as [|f IH]; intros d v nk e; cbn [extreme_loop_p]; [apply asks_any|]. apply (asks_step 1 0 f 0 any); [apply a_req_at| |lia|lia]. intros [|i|l] _; [apply asks_any| |apply asks_any].
  apply asks_pure. intros n _. apply asks_pure. intros [ck|] _; [apply IH|apply asks_any].
Qed.
Lemma a_closest v e rp : forall rps, asks any (closest_loop_p v e rp rps) 64 0.
Proof.
  induction rp as [|i rp IH]; intros [|q rps]; cbn [closest_loop_p]; try apply asks_any. destruct (neighbor_nibble q i e) as [[nb w]|]; [|apply IH].
  cbn zeta. apply (asks_step (65 - length (rev rp ++ [nb])) 0 0 0 any); [apply a_extreme|intros k _; apply asks_any|rewrite app_length; cbn; lia|lia].
Qed.
Lemma a_search k v rem : forall vis nk ps, asks any (search_loop_p k v rem vis nk ps) (1 + length rem) 0.
Proof.
  induction rem as [|n rem IH]; intros vis nk ps; cbn [search_loop_p length].
  - apply (asks_step 1 0 0 0 any); [apply a_req_at| |lia|lia]. intros [|i|l] _; apply asks_any.
  - apply (asks_step 1 0 (1 + length rem) 0 any); [apply a_req_at| |lia|lia]. intros [|i|l] _; try apply asks_any. cbn zeta. apply asks_pure. intros [ck|] _; [apply IH|apply asks_any].
Qed.
Lemma a_bounding k v : asks any (get_bounding_path_p k v) 193 0.
Proof.
  unfold get_bounding_path_p. apply (asks_step 65 0 128 0 any); [|clear|lia|lia].
  - eapply asks_le; [apply a_search| |lia]. rewrite key_nibbles_length. lia.
  - intros [[] leaf path ps|path ps] _; try apply asks_any.
    + apply (asks_step 64 0 0 0 any); [apply a_closest|intros; apply asks_any|lia|lia].
    + apply (asks_step 64 0 0 0 any); [apply a_closest|intros; apply asks_any|lia|lia].
    + apply (asks_step 64 0 64 0 any); [apply a_closest| |lia|lia]. intros r _. apply (asks_step 64 0 0 0 any); [apply a_closest|intros; apply asks_any|lia|lia].
Qed.
Lemma a_excl k v : asks any (get_with_exclusion_proof_p H k v) 1156 3.
Proof.
  unfold get_with_exclusion_proof_p. apply (asks_step 321 1 835 2 any); [apply a_gwp| |lia|lia]. intros [[x|] p] _; [apply asks_any|].
  apply (asks_step 193 0 642 2 any); [apply a_bounding| |lia|lia]. intros [[lb|] [rb|]] _; try apply asks_any.
  - apply (asks_step 321 1 321 1 any); [apply a_gwp| |lia|lia]. intros [? lp] _. apply (asks_step 321 1 0 0 any); [apply a_gwp| |lia|lia]. intros [? rp] _. apply asks_any.
  - apply (asks_step 321 1 0 0 any); [apply a_gwp| |lia|lia]. intros [? lp] _. apply asks_any.
  - apply (asks_step 321 1 0 0 any); [apply a_gwp| |lia|lia]. intros [? lp] _. apply asks_any.
Qed.
Lemma a_iter_new v start : asks any (iter_new_p v start) 66 0.
Proof.
  unfold iter_new_p. change 66 with (2 + 64). rewrite <- (key_nibbles_length start). generalize (key_nibbles start) (nk_root v) (@nil visit_info). intros rem.
  induction rem as [|n rem IH]; intros nk st; cbn [iter_new_loop_p length].
  - apply (asks_step 1 0 1 0 any); [apply a_req| |lia|lia]. intros [|i|l] _; try apply asks_any; (apply (asks_step 1 0 0 0 any); [apply a_req| |lia|lia]; intros [|i'|l'] _; apply asks_any).
  - apply (asks_step 1 0 (2 + length rem) 0 any); [apply a_req| |lia|lia]. intros [|i|l] _; try (apply (asks_step 1 0 (1 + length rem) 0 any); [apply a_req| |lia|lia]; intros [|i'|l'] _; apply asks_any).
    destruct (in_child i n); [|apply asks_any]. apply asks_pure. intros x _. apply IH.
Qed.
Lemma a_iter_index v t : asks any (iter_new_by_index_p v t) 66 0.
Proof.
  unfold iter_new_by_index_p. apply (asks_step 1 0 65 0 any); [apply a_req| |lia|lia]. intros nd _. destruct (_ <=? t); [apply asks_any|]. generalize 65. intros f. generalize 0 at 1. generalize (nk_root v). generalize (@nil visit_info). revert nd.
  induction f as [|f IH]; intros nd st nk s; cbn [iter_index_loop_p]; [apply asks_any|]. destruct nd as [|i|l]; try apply asks_any. apply asks_pure. intros [[n c] s'] _. apply asks_pure. intros x _.
  apply (asks_step 1 0 f 0 any); [apply a_req| |lia|lia]. intros nd _. apply IH.
Qed.
Lemma a_iter_next it : asks any (iter_next_p it) 65 1.
Proof.
  unfold iter_next_p. destruct (it_done it); [apply asks_any|]. destruct (it_stack it) as [|x st].
  - apply (asks_step 1 0 0 1 any); [apply a_req| |lia|lia]. intros [|i|l] _; try apply asks_any. apply (asks_step 0 1 0 0 any); [apply a_req_value| |lia|lia]. intros y _. apply asks_any.
  - generalize 65. intros f. generalize (x :: st). clear. generalize (it_version it). intros v. induction f as [|f IH]; intros st; cbn [iter_next_loop_p]; [apply asks_any|]. destruct st as [|x st]; [apply asks_any|].
    apply asks_pure. intros n _. apply asks_pure. intros c _. cbn zeta. apply (asks_step 1 0 f 1 any); [apply a_req| |lia|lia]. intros [|i|l] _; try apply asks_any.
    + apply asks_pure. intros x' _. apply IH.
    + apply (asks_step 0 1 0 0 any); [apply a_req_value| |lia|lia]. intros y _. apply asks_any.
Qed.
End queries.

Section commits.
Context (H : list byte -> bytes32).
Lemma a_creq_option c nk : asks any (creq_option c nk) 1 0.
Proof. unfold creq_option. destruct (cache_cached c nk); [apply asks_any|apply a_req_option]. Qed.
Lemma a_creq_node c nk : asks any (creq_node c nk) 1 0.
Proof. unfold creq_node. destruct (cache_cached c nk); [apply asks_any|apply a_req]. Qed.
Lemma a_creq_unwrap c nk : asks any (creq_unwrap c nk) 1 0.
Proof. unfold creq_unwrap. destruct (cache_cached c nk); [apply asks_any|apply a_req_unwrap]. Qed.
Lemma a_new next : asks any (cache_new_p next) 1 0.
Proof. unfold cache_new_p. destruct (_ =? 0)%N; [|apply asks_any]. apply (asks_step 1 0 0 0 any); [apply a_req_option| |lia|lia]. intros [n|] _; apply asks_any. Qed.
Lemma a_freeze c : asks any (cache_freeze_p H c) 2 0.
Proof.
  unfold cache_freeze_p. cbn zeta. apply (asks_step 1 0 1 0 any); [apply a_creq_option| |lia|lia]. intros o _. apply asks_pure. intros [c1 nd] _. apply asks_pure. intros rh _.
  apply (asks_step 1 0 0 0 any); [|intros; apply asks_any|lia|lia]. destruct (_ && _); [|apply asks_any]. apply (asks_step 1 0 0 0 any); [apply a_creq_node|intros; apply asks_any|lia|lia].
Qed.

(** *** The size of the result *)
Lemma size_union_le {K A} `{Countable K} (m1 m2 : gmap K A) : size (m1 ∪ m2) <= size m1 + size m2.
Proof. rewrite <- !size_dom, dom_union, size_union_alt. enough (size (dom m2 ∖ dom m1) <= size (dom m2)) by lia. apply subseteq_size. set_solver. Qed.
Lemma size_gunion_le {K} `{Countable K} (m1 m2 : gset K) : size (m1 ∪ m2) <= size m1 + size m2.
Proof. rewrite size_union_alt. enough (size (m2 ∖ m1) <= size m2) by lia. apply subseteq_size. set_solver. Qed.
Lemma size_stale_le (v : version) (X : gset nodekey) : size (set_map (pair v) X : gset (version * nodekey)) <= size X.
Proof.
  induction X as [|x X Hx IH] using set_ind_L; [rewrite set_map_empty, !size_empty; lia|]. rewrite set_map_union_L, set_map_singleton_L.
  etrans; [apply size_gunion_le|]. rewrite size_singleton, size_union, size_singleton; [lia|set_solver].
Qed.
(** [n] more new nodes and [s] more stale ones *)
Definition grew (n s : nat) (c c' : cache) : Prop :=
  size (tc_nodes c') <= size (tc_nodes c) + n /\ size (tc_stale c') <= size (tc_stale c) + s /\
  tc_values c' = tc_values c /\ fz_nodes c' = fz_nodes c /\ fz_values c' = fz_values c /\ fz_stale c' = fz_stale c.
Lemma grew_refl n s c : grew n s c c.
Proof. unfold grew. repeat split; lia. Qed.
Lemma grew_trans n1 s1 n2 s2 c1 c2 c3 : grew n1 s1 c1 c2 -> grew n2 s2 c2 c3 -> grew (n1 + n2) (s1 + s2) c1 c3.
Proof. unfold grew. intros (?&?&?&?&?&?) (?&?&?&?&?&?). repeat split; try lia; congruence. Qed.
Lemma grew_le n s n' s' c c' : grew n s c c' -> n <= n' -> s <= s' -> grew n' s' c c'.
Proof. unfold grew. intros (?&?&?&?&?&?) ? ?. repeat split; try lia; done. Qed.
Lemma g_put c nk n c' : cache_put_node c nk n = Ok c' -> grew 1 0 c c'.
Proof.
  unfold cache_put_node. destruct (tc_nodes c !! nk) eqn:E; [done|]. intros [= <-]. unfold grew. cbn. rewrite map_size_insert_None by done. repeat split; lia.
Qed.
Lemma g_delete c nk l c' : cache_delete_node c nk l = Ok c' -> grew 0 1 c c'.
Proof.
  unfold cache_delete_node. destruct (tc_nodes c !! nk) eqn:E; intros R; apply bind_ok in R as [y [_ R]]; injection R as <-; unfold grew; cbn.
  - rewrite map_size_delete, E. repeat split; lia.
  - pose proof (size_gunion_le {[nk]} (tc_stale c)) as L. rewrite size_singleton in L. repeat split; lia.
Qed.
Lemma g_leaf nk full vh c nk' nd c' : create_leaf_node nk full vh c = Ok (nk', nd, c') -> grew 1 0 c c'.
Proof. unfold create_leaf_node. intros [k [_ R]]%bind_ok. apply bind_ok in R as [c1 [R1 R]]. injection R as <- <- <-. by eapply g_put. Qed.
Lemma g_chain n v : forall path nk i c nk' i' c', chain_loop H n v path nk i c = Ok (nk', i', c') -> grew n 0 c c'.
Proof.
  induction n as [|n IH]; intros path nk i c nk' i' c'; cbn [chain_loop]; [intros [= <- <- <-]; apply grew_refl|].
  intros [[nib p'] [_ R]]%bind_ok. apply bind_ok in R as [h [_ R]]. apply bind_ok in R as [i1 [_ R]]. apply bind_ok in R as [c1 [R1 R]].
  eapply (grew_le (1 + n) (0 + 0)); [|lia|lia]. eapply grew_trans; [by eapply g_put|by eapply IH].
Qed.
Definition fits (n s : nat) (c : cache) (r : put_result * option sm_proof * cache) : Prop :=
  match r.1.1 with Removed => grew 0 s c r.2 | _ => grew n s c r.2 end.
Lemma fits_le n s n' s' c r : fits n s c r -> n <= n' -> s <= s' -> fits n' s' c r.
Proof. unfold fits. destruct r.1.1; intros; (eapply grew_le; [done|lia|lia]). Qed.
Lemma lcp_le (a b : list nibble) : lcp a b <= length a.
Proof. revert b. induction a as [|x a IH]; intros [|y b]; cbn; try lia. case_decide; [|lia]. specialize (IH b). lia. Qed.
Lemma g_insert_leaf nk lf v vis rem vh c wp r : insert_at_leaf_node H nk lf v vis rem vh c wp = Ok r -> fits (length rem + 2) 1 c r.
Proof.
  unfold insert_at_leaf_node. cbn zeta. intros [u [_ R]]%bind_ok. generalize dependent (drop (lcp vis (key_nibbles (ln_key lf))) (key_nibbles (ln_key lf))). intros lr R.
  destruct (drop (lcp rem lr) rem) as [|x rem''] eqn:E.
  - apply bind_ok in R as [u' [_ R]]. apply bind_ok in R as [c1 [R1 R]]. apply g_delete in R1. destruct vh as [vh|].
    + apply bind_ok in R as [[[nk' n] c2] [R2 R]]. injection R as <-. apply g_leaf in R2. unfold fits; cbn. eapply (grew_le (0 + 1) (1 + 0)); [by eapply grew_trans|lia|lia].
    + injection R as <-. done.
  - destruct vh as [vh|]; [|injection R as <-; unfold fits; cbn; apply grew_refl].
    apply bind_ok in R as [c1 [R1 R]]. apply g_delete in R1. apply bind_ok in R as [oi [_ R]]. apply bind_ok in R as [u' [_ R]]. apply bind_ok in R as [c2 [R2 R]]. apply g_put in R2.
    apply bind_ok in R as [[[k3 nl] c3] [R3 R]]. apply g_leaf in R3. apply bind_ok in R as [hn [_ R]]. apply bind_ok in R as [i [_ R]]. apply bind_ok in R as [c4 [R4 R]]. apply g_put in R4.
    apply bind_ok in R as [[[nk' i'] c5] [R5 R]]. apply g_chain in R5. injection R as <-. unfold fits; cbn.
    assert (lcp rem lr < length rem). { pose proof (lcp_le rem lr). apply (f_equal length) in E. rewrite drop_length in E. cbn [length] in E. lia. }
    eapply (grew_le (0 + 1 + 1 + 1 + lcp rem lr) (1 + 0 + 0 + 0 + 0)); [|lia|lia].
    eapply grew_trans; [|exact R5]. eapply grew_trans; [|exact R4]. eapply grew_trans; [|exact R3]. by eapply grew_trans.
Qed.
Lemma children_iter_insert n ch (m : children) : children_iter (<[n := ch]> m) <> [].
Proof. intros E. assert (I : (n, ch) ∈ children_iter (<[n := ch]> m)) by (apply children_iter_in, lookup_insert). rewrite E in I. by apply elem_of_nil in I. Qed.

(** requests of a write, per level *)
Definition per_level (wp : bool) : nat := if wp then 6 else 2.
Lemma a_internal nk i v n full vh c wp rec a g s : (forall ck c, asks (fits (1 + g) s c) (rec ck c) (1 + a) 0) -> asks (fits (2 + g) (2 + s) c) (insert_at_internal_p H nk i v n full vh c wp rec) (per_level wp + a) 0.
Proof.
  intros Hr. unfold insert_at_internal_p. apply (asks_step (per_level wp + a - 1) 0 1 0 (fits (1 + g) s c)); [| |destruct wp; cbn; lia|lia].
  - destruct (in_child i n) as [ci|].
    + apply (asks_step (per_level wp - 2) 0 (1 + a) 0 any); [| |destruct wp; cbn; lia|lia].
      * destruct wp; [|apply asks_any]. change (per_level true - 2) with 4. apply (asks_step 4 0 0 0 any); [apply a_child_siblings; intros; apply a_creq_unwrap| |lia|lia]. intros [ck sibs] _. apply asks_pure. intros; apply asks_any.
      * intros [ck sibs] _. apply (asks_step (1 + a) 0 0 0 (fits (1 + g) s c)); [apply Hr| |lia|lia]. intros [[r p] c1] F. constructor. intros y [= <-]. done.
    + apply (asks_step (per_level wp - 1) 0 0 0 any); [| |destruct wp; cbn; lia|lia].
      * destruct wp; [|apply asks_any]. change (per_level true - 1) with 5. apply (asks_step 4 0 1 0 any); [apply a_child_siblings; intros; apply a_creq_unwrap| |lia|lia]. intros [ck sibs] _.
        apply (asks_step 1 0 0 0 any); [|intros; apply asks_any|lia|lia]. destruct ck as [ck|]; [|apply asks_any]. apply (asks_step 1 0 0 0 any); [apply a_creq_unwrap|intros; apply asks_any|lia|lia].
      * intros pf _. destruct vh; [|constructor; intros y [= <-]; unfold fits; cbn; apply grew_refl]. apply asks_pure. intros [[nk' nd] c1] R%g_leaf. constructor. intros y [= <-]. unfold fits; cbn. eapply grew_le; [done|lia|lia].
  - intros [[res pf] c1] F. destruct res as [nk' nd| |]; unfold fits in F; cbn in F.
    + apply asks_pure. intros ch R. apply bind_ok in R as [h [_ R]]. apply bind_ok in R as [t [_ R]]. injection R as <-.
      apply asks_pure. intros c2 R2%g_delete. destruct (children_iter _) as [|[cn ci'] more] eqn:E; [by apply children_iter_insert in E|]. destruct (_ && _).
      * cbn zeta. apply (asks_step 1 0 0 0 any); [apply a_creq_node| |lia|lia]. intros nd' _. constructor. intros y R. apply bind_ok in R as [c3 [R3 R]]. apply bind_ok in R as [c4 [R4 R]]. injection R as <-.
        apply g_delete in R3. apply g_put in R4. unfold fits; cbn. eapply (grew_le (1 + g + 0 + 0 + 1) (s + 1 + 1 + 0)); [|lia|lia]. eapply grew_trans; [|exact R4]. eapply grew_trans; [|exact R3]. by eapply grew_trans.
      * constructor. intros y R. apply bind_ok in R as [i' [_ R]]. apply bind_ok in R as [c3 [R3 R]]. injection R as <-. apply g_put in R3. unfold fits; cbn.
        eapply (grew_le (1 + g + 0 + 1) (s + 1 + 0)); [|lia|lia]. eapply grew_trans; [|exact R3]. by eapply grew_trans.
    + apply asks_pure. intros ch R. injection R as <-.
      apply asks_pure. intros c2 R2%g_delete. destruct (children_iter _) as [|[cn ci'] more] eqn:E.
      { constructor. intros y [= <-]. unfold fits; cbn. eapply (grew_le (0 + 0) (s + 1)); [by eapply grew_trans|lia|lia]. } destruct (_ && _).
      * cbn zeta. apply (asks_step 1 0 0 0 any); [apply a_creq_node| |lia|lia]. intros nd' _. constructor. intros y R. apply bind_ok in R as [c3 [R3 R]]. apply bind_ok in R as [c4 [R4 R]]. injection R as <-.
        apply g_delete in R3. apply g_put in R4. unfold fits; cbn. eapply (grew_le (0 + 0 + 0 + 1) (s + 1 + 1 + 0)); [|lia|lia]. eapply grew_trans; [|exact R4]. eapply grew_trans; [|exact R3]. by eapply grew_trans.
      * constructor. intros y R. apply bind_ok in R as [i' [_ R]]. apply bind_ok in R as [c3 [R3 R]]. injection R as <-. apply g_put in R3. unfold fits; cbn.
        eapply (grew_le (0 + 0 + 1) (s + 1 + 0)); [|lia|lia]. eapply grew_trans; [|exact R3]. by eapply grew_trans.
    + constructor. intros y [= <-]. unfold fits; cbn. eapply grew_le; [done|lia|lia].
Qed.
Lemma a_insert : forall rem vis nk v vh c wp, asks (fits (length rem + 2) (2 * length rem + 1) c) (insert_at_p H rem vis nk v vh c wp) (1 + per_level wp * length rem) 0.
Proof.
  assert (N : forall rem vis (nk : nodekey) v vh c wp (b : bool) a, asks (fits (length rem + 2) (2 * length rem + 1) c)
    (Done (if negb (bool_decide (nk_path nk = [])) then Err (EOther "Null node exists for non-root node")
      else c ← (if ((nk_version nk =? v)%N && b) then cache_delete_node c nk false else Ok c);
        match vh with
        | Some vh => '(nk', nd, c) ← create_leaf_node (nk_root v) (vis ++ rem) vh c; Ok (Updated nk' nd, with_pf wp (SMProof None []), c)
        | None => Ok (NotChanged, with_pf wp (SMProof None []), c)
        end)) a 0).
  { intros rem vis nk v vh c wp b a. constructor. intros y R. destruct (negb _); [done|]. apply bind_ok in R as [c1 [R1 R]].
    assert (grew 0 1 c c1). { destruct (_ && _); [by eapply g_delete|injection R1 as <-; apply grew_refl]. } destruct vh as [vh|].
    - apply bind_ok in R as [[[nk' nd] c2] [R2 R]]. injection R as <-. apply g_leaf in R2. unfold fits; cbn. eapply (grew_le (0 + 1) (1 + 0)); [by eapply grew_trans|lia|lia].
    - injection R as <-. unfold fits; cbn. eapply grew_le; [done|lia|lia]. }
  assert (Le : forall rem vis nk v vh c wp lf a, asks (fits (length rem + 2) (2 * length rem + 1) c) (Done (insert_at_leaf_node H nk lf v vis rem vh c wp)) a 0).
  { intros. constructor. intros y R%g_insert_leaf. eapply fits_le; [done|lia|lia]. }
  induction rem as [|n rem IH]; intros vis nk v vh c wp; cbn [insert_at_p].
  - apply (asks_step 1 0 0 0 any); [apply a_creq_option| |lia|lia]. intros [[|i|lf]|] _; [apply (N []) with (b := true)|by constructor|apply Le|apply (N []) with (b := false)].
  - apply (asks_step 1 0 (per_level wp * S (length rem)) 0 any); [apply a_creq_option| |reflexivity|lia].
    intros [[|i|lf]|] _; [apply (N (n :: rem)) with (b := true)| |apply Le|apply (N (n :: rem)) with (b := false)].
    eapply asks_mono; [apply (a_internal _ _ _ _ _ _ _ _ _ (per_level wp * length rem) (length rem + 1) (2 * length rem + 1))|lia|lia|].
    + intros ck c0. eapply asks_mono; [apply IH|lia|lia|]. intros y F. eapply fits_le; [done|lia|lia].
    + intros y F. eapply fits_le; [done|cbn; lia|cbn; lia].
Qed.
Lemma a_put k vh v c wp : asks (fun r => grew 66 129 c r.2) (put_p H k vh v c wp) (1 + per_level wp * 64) 0.
Proof.
  unfold put_p. pose proof (fun c => a_insert (key_nibbles k) [] (tc_root c) v vh c wp) as I. pose proof (key_nibbles_length k) as L. revert I L. generalize (key_nibbles k). intros ns I L.
  apply (asks_step (1 + per_level wp * length ns) 0 0 0 _ _ _ _ _ _ (I c)); [|rewrite L; lia|lia]. intros [[res pf] c1] F. unfold fits in F. cbn [fst snd] in F. rewrite L in F. constructor. intros y R. destruct res as [nk nd| |].
  - injection R as <-. exact F.
  - cbn zeta in R. apply bind_ok in R as [c2 [R2 R]]. injection R as <-. apply g_put in R2. eapply (grew_le (0 + 1) (129 + 0)); [|lia|lia]. eapply grew_trans; [exact F|exact R2].
  - injection R as <-. exact F.
Qed.
(** writes [n] *)
Definition grew_set (n : nat) (c c' : cache) : Prop :=
  size (tc_nodes c') <= size (tc_nodes c) + 66 * n /\ size (tc_stale c') <= size (tc_stale c) + 129 * n /\ size (tc_values c') <= size (tc_values c) + n /\
  fz_nodes c' = fz_nodes c /\ fz_values c' = fz_values c /\ fz_stale c' = fz_stale c.
Lemma put_value_size c v k x : size (tc_values (cache_put_value c v k x)) <= size (tc_values c) + 1.
Proof. cbn. destruct (tc_values c !! (v, k)) eqn:E; [rewrite (map_size_insert_Some _ _ _ (mk_is_Some _ _ E)); lia|rewrite map_size_insert_None by done; lia]. Qed.
Lemma grew_set_cons c v k x c1 n c2 : grew 66 129 (cache_put_value c v k x) c1 -> grew_set n c1 c2 -> grew_set (S n) c c2.
Proof. pose proof (put_value_size c v k x) as P. unfold grew, grew_set. intros (A1&A2&A3&A4&A5&A6) (B1&B2&B3&B4&B5&B6). rewrite A3 in *. cbn in A1, A2, A4, A5, A6. repeat split; try lia; congruence. Qed.
Lemma a_set v kvs : forall c, asks (grew_set (length kvs) c) (put_set_p H v kvs c) (129 * length kvs) 0.
Proof.
  induction kvs as [|[k x] kvs IH]; intros c; cbn [put_set_p length].
  - constructor. intros y [= <-]. unfold grew_set. repeat split; lia.
  - cbn zeta. apply (asks_step 129 0 (129 * length kvs) 0 _ _ _ _ _ _ (a_put _ _ _ _ false)); [|lia|lia]. intros [pf c1] G. cbn [snd] in G. eapply asks_mono; [apply IH|lia|lia|]. intros y Hy. by eapply grew_set_cons.
Qed.
Lemma a_set_p v kvs : forall c, asks (fun r => grew_set (length kvs) c r.2) (put_set_with_proof_p H v kvs c) (385 * length kvs) 0.
Proof.
  induction kvs as [|[k x] kvs IH]; intros c; cbn [put_set_with_proof_p length].
  - constructor. intros y [= <-]. unfold grew_set. cbn. repeat split; lia.
  - cbn zeta. apply (asks_step 385 0 (385 * length kvs) 0 _ _ _ _ _ _ (a_put _ _ _ _ true)); [|lia|lia]. intros [pf c1] G. cbn [snd] in G. apply asks_pure. intros p _.
    apply (asks_step (385 * length kvs) 0 0 0 _ _ _ _ _ _ (IH c1)); [|lia|lia]. intros [ps c2] G2. constructor. intros y [= <-]. cbn [snd] in *. by eapply grew_set_cons.
Qed.
(** a frozen cache whose results have these sizes *)
Definition frozen (n v s : nat) (c : cache) : Prop := tc_nodes c = ∅ /\ tc_values c = ∅ /\ tc_stale c = ∅ /\ size (fz_nodes c) <= n /\ size (fz_values c) <= v /\ size (fz_stale c) <= s.
Lemma a_freeze' c : asks (frozen (size (tc_nodes c) + size (fz_nodes c) + 1) (size (tc_values c) + size (fz_values c)) (size (tc_stale c) + size (fz_stale c))) (cache_freeze_p H c) 2 0.
Proof.
  unfold cache_freeze_p. cbn zeta. apply (asks_step 1 0 1 0 any); [apply a_creq_option| |lia|lia]. intros o _. apply asks_pure. intros [c1 nd] R. apply asks_pure. intros rh _.
  assert (G : grew 0 0 c c1 \/ (grew 1 0 c c1 /\ tc_nodes c1 <> ∅)).
  { destruct o as [n|]; [injection R as <- <-; left; apply grew_refl|]. apply bind_ok in R as [c' [R1 R]]. injection R as <- <-. right. split; [by eapply g_put|].
    unfold cache_put_node in R1. destruct (tc_nodes c !! _); [done|]. injection R1 as <-. cbn. apply insert_non_empty. }
  apply (asks_step 1 0 0 0 (grew 1 0 c)); [| |lia|lia].
  - destruct (_ && bool_decide (tc_nodes c1 = ∅) && _) eqn:E.
    + destruct G as [G|[_ G]]; [|exfalso; apply G; apply andb_true_iff in E as [E _]; apply andb_true_iff in E as [_ E]; by apply bool_decide_eq_true in E].
      apply (asks_step 1 0 0 0 any); [apply a_creq_node| |lia|lia]. intros n _. constructor. intros y R1%g_put. eapply (grew_le (0 + 1) (0 + 0)); [by eapply grew_trans|lia|lia].
    + constructor. intros y [= <-]. destruct G as [G|[G _]]; [eapply grew_le; [done|lia|lia]|done].
  - intros c2 (A1&A2&A3&A4&A5&A6). constructor. intros y [= <-]. unfold frozen. cbn. rewrite A3, A4, A5, A6. repeat split; try done.
    + etrans; [apply size_union_le|]. lia.
    + apply size_union_le.
    + etrans; [apply size_gunion_le|]. pose proof (size_stale_le (tc_next c2) (tc_stale c2)). lia.
Qed.
End commits.

(** *** Specification: totals over the value sets of a call *)
Fixpoint total {A} (f : nat -> nat) (sets : list (list A)) : nat := match sets with [] => 0 | s :: sets' => f (length s) + total f sets' end.

Section commits2.
Context (H : list byte -> bytes32).
Lemma a_sets sets : forall v c n x s d, size (tc_nodes c) <= d -> size (tc_values c) = 0 -> size (tc_stale c) = 0 -> size (fz_nodes c) <= n -> size (fz_values c) <= x -> size (fz_stale c) <= s ->
  asks (fun c' => size (fz_nodes c') <= d + n + total (fun w => 66 * w + 1) sets /\ size (fz_values c') <= x + total (fun w => w) sets /\ size (fz_stale c') <= s + total (fun w => 129 * w) sets)
    (put_sets_p H v sets c) (total (fun w => 129 * w + 2) sets) 0.
Proof.
  induction sets as [|kvs sets IH]; intros v c n x s d D V0 S0 Ln Lx Ls; cbn [put_sets_p total].
  - constructor. intros y [= <-]. lia.
  - apply (asks_step (129 * length kvs) 0 (2 + total (fun w => 129 * w + 2) sets) 0 _ _ _ _ _ _ (a_set H _ _ _)); [|lia|lia]. intros c1 (A1&A2&A3&A4&A5&A6).
    apply (asks_step 2 0 (total (fun w => 129 * w + 2) sets) 0 _ _ _ _ _ _ (a_freeze' H _)); [|lia|lia]. intros c2 (B1&B2&B3&B4&B5&B6).
    eapply asks_mono; [apply (IH (v + 1)%N c2 (d + n + 66 * length kvs + 1) (x + length kvs) (s + 129 * length kvs) 0)|..]; try lia.
    + by rewrite B1, map_size_empty.
    + by rewrite B2, map_size_empty.
    + by rewrite B3, size_empty.
    + rewrite A4 in B4. lia.
    + rewrite A5 in B5. lia.
    + rewrite A6 in B6. lia.
    + intros y C. cbv beta in C. lia.
Qed.
Lemma a_sets_p sets : forall v c n x s d, size (tc_nodes c) <= d -> size (tc_values c) = 0 -> size (tc_stale c) = 0 -> size (fz_nodes c) <= n -> size (fz_values c) <= x -> size (fz_stale c) <= s ->
  asks (fun r => size (fz_nodes r.2) <= d + n + total (fun w => 66 * w + 1) sets /\ size (fz_values r.2) <= x + total (fun w => w) sets /\ size (fz_stale r.2) <= s + total (fun w => 129 * w) sets)
    (put_sets_with_proof_p H v sets c) (total (fun w => 385 * w + 2) sets) 0.
Proof.
  induction sets as [|kvs sets IH]; intros v c n x s d D V0 S0 Ln Lx Ls; cbn [put_sets_with_proof_p total].
  - constructor. intros y [= <-]. cbn [snd]. lia.
  - apply (asks_step (385 * length kvs) 0 (2 + total (fun w => 385 * w + 2) sets) 0 _ _ _ _ _ _ (a_set_p H _ _ _)); [|lia|lia]. intros [pfs c1] (A1&A2&A3&A4&A5&A6). cbn [snd] in *.
    apply (asks_step 2 0 (total (fun w => 385 * w + 2) sets) 0 _ _ _ _ _ _ (a_freeze' H _)); [|lia|lia]. intros c2 (B1&B2&B3&B4&B5&B6).
    eapply (asks_step _ 0 0 0 _); [apply (IH (v + 1)%N c2 (d + n + 66 * length kvs + 1) (x + length kvs) (s + 129 * length kvs) 0)|..]; try lia.
    + by rewrite B1, map_size_empty.
    + by rewrite B2, map_size_empty.
    + by rewrite B3, size_empty.
    + rewrite A4 in B4. lia.
    + rewrite A5 in B5. lia.
    + rewrite A6 in B6. lia.
    + intros [rest c3] C. constructor. intros y [= <-]. cbn [snd] in *. lia.
Qed.
Lemma a_new' next : asks (fun c => size (tc_nodes c) <= 1 /\ tc_values c = ∅ /\ tc_stale c = ∅ /\ fz_nodes c = ∅ /\ fz_values c = ∅ /\ fz_stale c = ∅) (cache_new_p next) 1 0.
Proof.
  unfold cache_new_p. destruct (_ =? 0)%N.
  - apply (asks_step 1 0 0 0 any); [apply a_req_option| |lia|lia]. intros [n|] _; constructor; intros y [= <-]; cbn; split_and!; try done; rewrite ?map_size_empty, ?map_size_singleton; lia.
  - constructor; intros y [= <-]; cbn; split_and!; try done; rewrite ?map_size_empty; lia.
Qed.

(** *** The ranges of a batch tile the list *)
Fixpoint tiles (o e : nat) (rs : list (nat * nat)) : Prop :=
  match rs with [] => True | (l, r) :: rs' => l = o /\ o <= r /\ r < e /\ tiles (r + 1) e rs' end.
Lemma search_between kvs idx cur rounds : forall i j e, i <= j -> nri_search rounds kvs idx cur i j = Ok e -> i <= e <= j.
Proof.
  induction rounds as [|r IH]; intros i j e L; cbn [nri_search]; [done|]. destruct (i <? j) eqn:E; [|intros [= <-]; lia]. apply Nat.ltb_lt in E.
  assert (D2 : (j - i) / 2 < j - i) by (apply Nat.div_lt; lia). intros [x [_ R]]%bind_ok. destruct (_ <? _)%N.
  - apply bind_ok in R as [_ [_ R]]. apply IH in R; lia.
  - apply IH in R; lia.
Qed.
Lemma drain_tiles kvs idx rounds : forall o rs, nri_drain_loop rounds (NRI kvs idx o) = Ok rs -> tiles o (length kvs) rs.
Proof.
  induction rounds as [|r IH]; intros o rs; cbn [nri_drain_loop]; [done|]. intros [[x it] [E R]]%bind_ok. unfold nri_next in E. cbn [nri_pos nri_kvs nri_idx] in E.
  destruct (o <? length kvs) eqn:Lt; [|injection E as <- <-; by injection R as <-]. apply Nat.ltb_lt in Lt. apply bind_ok in E as [cur [_ E]]. apply bind_ok in E as [e [Es E]]. injection E as <- <-.
  cbn [fst snd] in R. apply bind_ok in R as [rs' [R1 R]]. injection R as <-. apply search_between in Es; [|lia]. cbn [tiles]. apply IH in R1. repeat split; try lia. done.
Qed.
Lemma ranges_tiles kvs idx rs : nri_ranges kvs idx = Ok rs -> tiles 0 (length kvs) rs.
Proof. unfold nri_ranges, nri_new. intros [it [E R]]%bind_ok. apply bind_ok in E as [_ [_ E]]. injection E as <-. by eapply drain_tiles. Qed.

Lemma a_batch_loop v kvs depth hc body m : (forall n sub flag c, asks any (body n sub flag c) (m * length sub) 0) -> forall rs o ch flag c, tiles o (length kvs) rs ->
  asks any (batch_loop_p H v kvs depth hc body rs ch flag c) (m * (length kvs - o)) 0.
Proof.
  intros Hb. induction rs as [|[l r] rs IH]; intros o ch flag c T; cbn [batch_loop_p]; [apply asks_any|]. destruct T as (-> & L1 & L2 & T).
  apply asks_pure. intros kv _. apply asks_pure. intros n _. apply asks_pure. intros sub Es. unfold slice_incl in Es. apply bind_ok in Es as [_ [_ Es]]. injection Es as <-.
  apply (asks_step (m * (r + 1 - o)) 0 (m * (length kvs - (r + 1))) 0 any).
  - eapply asks_le; [apply Hb| |lia]. rewrite take_length, drop_length. apply Nat.mul_le_mono_l. lia.
  - intros [[[nk nd] fl] c1] _. apply asks_pure. intros h _. apply asks_pure. intros t _. by apply IH.
  - rewrite <- Nat.mul_add_distr_l. apply Nat.mul_le_mono_l. lia.
  - lia.
Qed.
Lemma a_batch_insert rem : forall nk v kvs depth hc c, asks any (batch_insert_at_p H rem nk v kvs depth hc c) ((1 + rem) * length kvs) 0.
Proof.
  induction rem as [|rem IH]; intros nk v kvs depth hc c; cbn [batch_insert_at_p]; apply asks_pure; intros u E; (assert (1 <= length kvs) by (destruct kvs; [done|cbn; lia])).
  - apply (asks_step 1 0 0 0 any); [apply a_creq_node| |lia|lia]. intros [|i|lf] _; apply asks_any.
  - apply (asks_step 1 0 ((1 + rem) * length kvs) 0 any); [apply a_creq_node| |lia|lia]. intros [|i|lf] _; try apply asks_any.
    apply asks_pure. intros c1 _. apply asks_pure. intros rs T%ranges_tiles. apply (asks_step ((1 + rem) * length kvs) 0 0 0 any); [|intros [[ch fl] c2] _; apply asks_any|lia|lia].
    eapply asks_le; [eapply (a_batch_loop _ _ _ _ _ (1 + rem)); [|exact T]|rewrite Nat.sub_0_r; lia|lia].
    intros n sub flag c2. apply (asks_step ((1 + rem) * length sub) 0 0 0 any); [|intros [[cnk cnd] c3] _; apply asks_any|lia|lia]. destruct (in_child i n); [apply IH|apply asks_any].
Qed.
Lemma collect_length s : length (btree_collect s) <= length s.
Proof.
  unfold btree_collect, entries. rewrite merge_sort_Permutation. change (length (map_to_list ?m)) with (size m).
  assert (G : forall m : gmap key value, size (fold_left (fun m kx => <[ kx.1 := kx.2 ]> m) s m) <= size m + length s).
  { induction s as [|[k x] s IH]; intros m; cbn [fold_left length fst snd]; [lia|]. etrans; [apply IH|]. destruct (m !! k) eqn:E; [rewrite (map_size_insert_Some _ _ _ (mk_is_Some _ _ E)); lia|rewrite map_size_insert_None by done; lia]. }
  specialize (G ∅). rewrite map_size_empty in G. exact G.
Qed.
Lemma a_batch_set v s hc c : asks any (batch_set_p H v s hc c) (65 * length s + 2) 0.
Proof.
  unfold batch_set_p. apply asks_pure. intros u _. cbn zeta. apply (asks_step (65 * length s) 0 2 0 any); [|intros [[nk nd] c1] _; apply a_freeze|lia|lia].
  eapply asks_le; [apply a_batch_insert| |lia]. rewrite map_length. pose proof (collect_length s). lia.
Qed.
Lemma a_batch_sets sets : forall v c, asks any (batch_sets_p H v sets c) (total (fun w => 65 * w + 2) sets.*1) 0.
Proof.
  induction sets as [|[s hc] sets IH]; intros v c; cbn [batch_sets_p fmap list_fmap fst total]; [apply asks_any|].
  apply (asks_step (65 * length s + 2) 0 (total (fun w => 65 * w + 2) sets.*1) 0 any); [apply a_batch_set|intros; apply IH|lia|lia].
Qed.
End commits2.

Lemma asks_result {A} (Q : A -> Prop) (p : prog A) a b : asks Q p a b -> forall rd y, runp rd p = Ok y -> Q y.
Proof. induction 1 as [o a b Ho|nk k a b _ IH|w x k a b _ IH]; intros rd y; cbn [runp]; [apply Ho|apply IH|apply IH]. Qed.
Lemma asks_ran {A} (Q : A -> Prop) (p : prog A) a b : asks Q p a b -> forall l y, ran p l (Ok y) -> Q y.
Proof. intros S l y R. remember (Ok y) as o eqn:E. revert a b S. induction R as [o|nk k r l o R IH|w x k r l o R IH]; intros a b S; inversion S; subst; eauto. Qed.

Section thms.
Context (H : list byte -> bytes32).
(** Every query makes at most this many requests, whatever the store answers and however many entries and versions it holds. *)
Theorem C79_queries k v it start n :
  at_most (get_p k v) 0 1 /\ at_most (get_root_hash_p H v) 1 0 /\ at_most (get_root_hash_option_p H v) 1 0 /\ at_most (get_leaf_count_p v) 1 0 /\
  at_most (get_with_proof_p H k v) 321 1 /\ at_most (get_range_proof_p H k v) 321 1 /\ at_most (get_with_exclusion_proof_p H k v) 1156 3 /\
  at_most (iter_new_p v start) 66 0 /\ at_most (iter_new_by_index_p v n) 66 0 /\ at_most (iter_next_p it) 65 1.
Proof.
  assert (G : asks any (get_p k v) 0 1) by (constructor; intros r; apply asks_any).
  split_and!; eapply asks_at_most; [exact G|apply a_root_hash|apply a_root_hash_option|apply a_leaf_count|apply a_gwp|apply a_range|apply a_excl|apply a_iter_new|apply a_iter_index|apply a_iter_next].
Qed.
(** A proof has at most 256 siblings, whatever the store answered. *)
Theorem C79_proof_size k v l x p : ran (get_with_proof_p H k v) l (Ok (x, p)) -> length (p_siblings p) <= 256.
Proof. apply (asks_ran _ _ _ _ (a_gwp' H k v) l (x, p)). Qed.
Lemma a_pvs sets first : asks (fun r => size (tb_nodes r.2) <= 1 + total (fun w => 66 * w + 1) sets /\ size (tb_values r.2) <= total (fun w => w) sets /\ size (tb_stale r.2) <= total (fun w => 129 * w) sets)
  (put_value_sets_p H sets first) (1 + total (fun w => 129 * w + 2) sets) 0.
Proof.
  unfold put_value_sets_p. eapply (asks_step 1 0 _ 0 _ _ _ _ _ _ (a_new' _)); [|reflexivity|lia]. intros c (A1&A2&A3&A4&A5&A6).
  eapply (asks_step _ 0 0 0 _); [apply (a_sets H sets first c 0 0 0 1); rewrite ?A2, ?A3, ?A4, ?A5, ?A6; rewrite ?map_size_empty, ?size_empty; done|..]; [|lia|lia].
  intros c' C. constructor. intros y [= <-]. exact C.
Qed.
Lemma a_pvsp sets first : asks (fun r => size (tb_nodes r.2) <= 1 + total (fun w => 66 * w + 1) sets /\ size (tb_values r.2) <= total (fun w => w) sets /\ size (tb_stale r.2) <= total (fun w => 129 * w) sets)
  (put_value_sets_with_proof_p H sets first) (1 + total (fun w => 385 * w + 2) sets) 0.
Proof.
  unfold put_value_sets_with_proof_p. eapply (asks_step 1 0 _ 0 _ _ _ _ _ _ (a_new' _)); [|reflexivity|lia]. intros c (A1&A2&A3&A4&A5&A6).
  eapply (asks_step _ 0 0 0 _); [apply (a_sets_p H sets first c 0 0 0 1); rewrite ?A2, ?A3, ?A4, ?A5, ?A6; rewrite ?map_size_empty, ?size_empty; done|..]; [|lia|lia].
  intros [pfs c'] C. constructor. intros y [= <-]. exact C.
Qed.
(** A commit: the number of requests depends on the number of writes only. *)
Theorem C79_commits sets ins hashes first :
  at_most (put_value_sets_p H sets first) (1 + total (fun w => 129 * w + 2) sets) 0 /\
  at_most (put_value_sets_with_proof_p H sets first) (1 + total (fun w => 385 * w + 2) sets) 0 /\
  at_most (batch_put_value_sets_p H ins hashes first) (1 + total (fun w => 65 * w + 2) ins) 0.
Proof.
  split_and!; eapply asks_at_most; [apply a_pvs|apply a_pvsp|]. unfold batch_put_value_sets_p. cbn zeta. apply asks_pure. intros u E.
  apply (asks_step 1 0 (total (fun w => 65 * w + 2) ins) 0 any); [apply a_new| |lia|lia]. intros c _. apply (asks_step (total (fun w => 65 * w + 2) ins) 0 0 0 any); [|intros c' _; apply asks_any|lia|lia].
  assert (L : length ins = length match hashes with Some hs => map Some hs | None => map (fun _ => None) ins end).
  { unfold assert_ in E. destruct (_ =? _) eqn:Q in E; [|done]. by apply Nat.eqb_eq in Q. }
  eapply asks_le; [apply a_batch_sets| |lia]. rewrite fst_zip by lia. lia.
Qed.
(** ... and so does the size of the batch it returns: per write at most 66 new nodes, one value and 129 stale nodes, and one more node per
    value set and per call; with any store. *)
Theorem C79_batch_size rd sets first b :
  (exists roots, put_value_sets H rd sets first = Ok (roots, b)) \/ (exists roots, put_value_sets_with_proof H rd sets first = Ok (roots, b)) ->
  size (tb_nodes b) <= 1 + total (fun w => 66 * w + 1) sets /\ size (tb_values b) <= total (fun w => w) sets /\ size (tb_stale b) <= total (fun w => 129 * w) sets.
Proof.
  intros [[roots E]|[roots E]].
  - rewrite <- put_value_sets_p_ok in E. exact (asks_result _ _ _ _ (a_pvs sets first) rd (roots, b) E).
  - rewrite <- put_value_sets_with_proof_p_ok in E. exact (asks_result _ _ _ _ (a_pvsp sets first) rd (roots, b) E).
Qed.
End thms.

(** *** A concrete case, two keys that differ in their last bit only: the bounds on new nodes and on siblings are reached. *)
Fixpoint requests (rd : reader) {A} (p : prog A) {struct p} : list request :=
  match p with
  | Done _ => []
  | AskNode nk k => RNode nk :: requests rd (k (Ok (rd_node rd nk)))
  | AskValue w x k => RValue w x :: requests rd (k (Ok (rd_value rd w x)))
  end.
Lemma requests_ran rd {A} (p : prog A) : ran p (requests rd p) (runp rd p).
Proof. induction p as [o|nk k IH|w x k IH]; cbn [requests runp]; [apply ran_done|eapply ran_node, IH|eapply ran_value, IH]. Qed.
Definition KLast : key := default K00 (to_bytes32 (replicate 31 x00 ++ [x01])).
Definition deep : list op := [Commit [[(K00, Some va)]]; Commit [[(KLast, Some vb)]]].
Theorem deep_costs :
  match run toy [Commit [[(K00, Some va)]]] with
  | Ok (st, _) =>
      match put_value_sets toy (store_reader st) [[(KLast, Some vb)]] 1 with
      | Ok (_, b) => size (tb_nodes b) = 66%nat /\ size (tb_stale b) = 1%nat
      | _ => False
      end
  | _ => False
  end /\
  match run toy deep with
  | Ok (st, _) => let l := requests (store_reader st) (get_with_proof_p toy KLast 1) in
      nodes_asked l = 66%nat /\ values_asked l = 1%nat /\ match runp (store_reader st) (get_with_proof_p toy KLast 1) with Ok (Some x, p) => x = vb /\ length (p_siblings p) = 256%nat | _ => False end
  | _ => False
  end.
Proof. vm_compute. repeat split. Qed.
