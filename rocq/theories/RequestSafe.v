(** Programs that stop at every failed request, and what they can return. *)
From Coq Require Import Strings.String.
From Verif Require Import Base NodeType ProofDef TreeCache Tree BatchTree Exclusion Iterator ProofFacts Requests RequestFacts ThmPurged CommitMono.
From Coq Require Import Lia.

Definition failed {A} (r : outcome A) : Prop := forall a, r <> Ok a.
Definition stops {A} (p : prog A) : Prop := exists o, p = Done o /\ failed o.
(** [p] stops at every failed answer, at a missing value, and at a missing node unless its key is in [R]; its results satisfy [Q] *)
Inductive safe (R : nodekey -> bool) {A} (Q : A -> Prop) : prog A -> Prop :=
| safe_done o : (forall a, o = Ok a -> Q a) -> safe R Q (Done o)
| safe_node nk k : (forall x, (x = None -> R nk = true) -> safe R Q (k (Ok x))) -> (forall r, failed r -> stops (k r)) -> (R nk = false -> stops (k (Ok None))) -> safe R Q (AskNode nk k)
| safe_value w x k : (forall y, safe R Q (k (Ok (Some y)))) -> (forall r, failed r -> stops (k r)) -> stops (k (Ok None)) -> safe R Q (AskValue w x k).

Lemma stops_bind {A B} (p : prog A) (f : A -> prog B) : stops p -> stops (p ≫= f).
Proof. intros (o & -> & F). destruct o as [a|e|]; [by destruct (F a)|by exists (Err e)|by exists Panic]. Qed.
Lemma safe_weaken R {A} (Q Q' : A -> Prop) p : safe R Q p -> (forall a, Q a -> Q' a) -> safe R Q' p.
Proof. induction 1 as [o Ho|nk k _ IH S1 S2|w x k _ IH S1 S2]; intros HQ; constructor; eauto. Qed.
Lemma safe_bind R {A B} (Q : A -> Prop) (Q' : B -> Prop) (p : prog A) (f : A -> prog B) : safe R Q p -> (forall a, Q a -> safe R Q' (f a)) -> safe R Q' (p ≫= f).
Proof.
  intros S Hf. induction S as [o Ho|nk k _ IH S1 S2|w x k _ IH S1 S2].
  - destruct o as [a|e|]; [by apply Hf, Ho|by constructor|by constructor].
  - change (AskNode nk k ≫= f) with (AskNode nk (fun r => k r ≫= f)). constructor; [exact IH|..]; intros; apply stops_bind; auto.
  - change (AskValue w x k ≫= f) with (AskValue w x (fun r => k r ≫= f)). constructor; [exact IH|..]; intros; apply stops_bind; auto.
Qed.
Lemma safe_pure R {A B} (Q' : B -> Prop) (o : outcome A) (f : A -> prog B) : (forall a, o = Ok a -> safe R Q' (f a)) -> safe R Q' (Done o ≫= f).
Proof. intros Hf. apply (safe_bind R (fun a => o = Ok a)); [by constructor|done]. Qed.
Lemma safe_any R {A} (o : outcome A) : safe R (fun _ => True) (Done o).
Proof. by constructor. Qed.
Lemma stops_failed {A} (o : outcome A) : failed o -> stops (Done o).
Proof. intros F. by exists o. Qed.
Lemma failed_Err {A} e : failed (Err e : outcome A).
Proof. done. Qed.
Lemma failed_Panic {A} : failed (Panic : outcome A).
Proof. done. Qed.

(** *** the two uses *)
Section use.
Context (rd : reader) (an : nodekey -> outcome (option node) -> Prop) (av : version -> key -> outcome (option value) -> Prop) (R : nodekey -> bool).
(** every answer right, missing or failed: a success is the right result *)
Lemma safe_sound {A} (Q : A -> Prop) (p : prog A) y :
  (forall nk r, an nk r -> failed r \/ r = Ok (rd_node rd nk) \/ (r = Ok None /\ R nk = false)) ->
  (forall w x r, av w x r -> failed r \/ r = Ok (rd_value rd w x) \/ r = Ok None) ->
  safe R Q p -> may an av p (Ok y) -> runp rd p = Ok y.
Proof.
  intros An Av S M. remember (Ok y) as o eqn:Eo. revert Eo S.
  induction M as [o|nk k r o Ar M IH|w x k r o Ar M IH]; intros -> S; [done|..].
  - inversion S as [|nk' k' S1 S2 S3|]; subst. cbn [runp].
    assert (No : ~ stops (k r)) by (intros (o' & E & F); rewrite E in M; inversion M; subst; by destruct (F y)).
    destruct (An _ _ Ar) as [F|[->|[-> N]]]; [by destruct (No (S2 _ F))| |by destruct (No (S3 N))].
    apply IH; [done|]. apply S1. intros E. destruct (R nk) eqn:ER; [done|]. rewrite E in No. by destruct (No (S3 eq_refl)).
  - inversion S as [| |w' x' k' S1 S2 S3]; subst. cbn [runp].
    assert (No : ~ stops (k r)) by (intros (o' & E & F); rewrite E in M; inversion M; subst; by destruct (F y)).
    destruct (Av _ _ _ Ar) as [F|[->| ->]]; [by destruct (No (S2 _ F))| |by destruct (No S3)].
    apply IH; [done|]. destruct (rd_value rd w x); [apply S1|by destruct (No S3)].
Qed.
(** the right result is reached with the nodes of [rd] alone, and every answer about those (and the keys in [R]) is exact: so is the outcome *)
Lemma safe_exact {A} (Q : A -> Prop) (p : prog A) y o :
  (forall nk r, an nk r -> rd_node rd nk <> None \/ R nk = true -> r = Ok (rd_node rd nk)) ->
  (forall w x r, av w x r -> rd_value rd w x <> None -> r = Ok (rd_value rd w x)) ->
  safe R Q p -> runp rd p = Ok y -> may an av p o -> o = Ok y.
Proof.
  intros An Av S E M. revert E S. induction M as [o|nk k r o Ar M IH|w x k r o Ar M IH]; intros E S; [done|..]; cbn [runp] in E.
  - inversion S as [|nk' k' S1 S2 S3|]; subst.
    assert (N : rd_node rd nk <> None \/ R nk = true).
    { destruct (R nk) eqn:ER; [by right|]. left. intros En. rewrite En in E. destruct (S3 eq_refl) as (o' & Ek & F). rewrite Ek in E. cbn in E. by destruct (F y). }
    rewrite (An _ _ Ar N) in *. apply IH; [done|]. apply S1. intros En. by destruct N as [N|N].
  - inversion S as [| |w' x' k' S1 S2 S3]; subst.
    destruct (rd_value rd w x) as [z|] eqn:Ez; [|destruct S3 as (o' & Ek & F); rewrite Ek in E; cbn in E; by destruct (F y)].
    assert (r = Ok (Some z)) as ->; [|by apply IH]. rewrite <- Ez. apply (Av _ _ _ Ar). by rewrite Ez.
Qed.
End use.

(** *** the requests *)
Section reqs.
Context (R : nodekey -> bool).
Lemma safe_req_e e me nk : safe R (fun _ => True) (req_node_e e me nk).
Proof. unfold req_node_e. apply safe_node; [intros x _; by constructor|intros r F; apply stops_failed; destruct r as [a| |]; [by destruct (F a)|done..]|intros _; by apply stops_failed]. Qed.
Lemma safe_req nk : safe R (fun _ => True) (req_node nk).
Proof. apply safe_req_e. Qed.
Lemma safe_req_at top v nk : safe R (fun _ => True) (req_at top v nk).
Proof. destruct top; apply safe_req_e. Qed.
Lemma safe_req_unwrap nk : safe R (fun _ => True) (req_node_unwrap nk).
Proof. unfold req_node_unwrap. apply safe_node; [intros x _; by constructor|intros r F; apply stops_failed; destruct r as [a| |]; [by destruct (F a)|done..]|intros _; by apply stops_failed]. Qed.
Lemma safe_req_value w k : safe R (fun _ => True) (req_value w k).
Proof. unfold req_value. apply safe_value; [intros x; by constructor|intros r F; apply stops_failed; destruct r as [a| |]; [by destruct (F a)|done..]|by apply stops_failed]. Qed.
Lemma safe_option nk : R nk = true -> safe R (fun _ => True) (req_node_option nk).
Proof. intros E. unfold req_node_option. apply safe_node; [intros x _; by constructor|intros r F; by apply stops_failed|by rewrite E]. Qed.
(** a missing node stops what follows *)
Lemma safe_option_stops nk {B} (Q : B -> Prop) f : (forall n, safe R Q (f (Some n))) -> (R nk = false -> stops (f None)) -> (R nk = true -> safe R Q (f None)) -> safe R Q (req_node_option nk ≫= f).
Proof.
  intros S1 S2 S3. change (req_node_option nk ≫= f) with (AskNode nk (fun r => Done r ≫= f)). constructor.
  - intros [n|] N; [apply S1|by apply S3, N].
  - intros r F. by apply stops_bind, stops_failed.
  - exact S2.
Qed.
Section sib.
Context (H : list byte -> bytes32) (rn : nodekey -> prog node) (Hrn : forall nk, safe R (fun _ => True) (rn nk)).
Lemma safe_build nk i s h bm : safe R (fun _ => True) (build_sibling_p H rn nk i s h bm).
Proof.
  unfold build_sibling_p. apply safe_pure. intros rb _. destruct (_ =? 0)%N; [apply safe_any|]. destruct (has_only_child _ _ _); [|apply safe_any].
  apply safe_pure. intros n _. apply safe_pure. intros c _. eapply safe_bind; [apply Hrn|]. intros nd _. apply safe_any.
Qed.
Definition child_key (cs : option nodekey * list smnode) : Prop := forall ck, cs.1 = Some ck -> ck.2 <> [].
Lemma safe_siblings nk i n only bm hs : forall sibs, safe R child_key (siblings_loop_p H rn nk i n only bm hs sibs).
Proof.
  induction hs as [|h IH]; intros sibs; cbn [siblings_loop_p]; [by constructor|]. eapply safe_bind; [apply safe_build|]. intros s _. cbn zeta. apply safe_pure. intros rb _.
  destruct (_ =? 0)%N; [constructor; intros a [= <-]; done|]. destruct (only && _).
  { apply safe_pure. intros m _. apply safe_pure. intros c _. constructor. intros a [= <-] ck [= <-]. cbn. by destruct nk.2. }
  destruct (negb only && _); [|apply IH]. apply safe_pure. intros c _. constructor. intros a [= <-] ck [= <-]. cbn. by destruct nk.2.
Qed.
Lemma safe_child_siblings nk i n only : safe R child_key (child_siblings_p H rn nk i n only).
Proof. unfold child_siblings_p. apply safe_pure. intros bm _. apply safe_siblings. Qed.
End sib.
End reqs.

(** *** queries *)
Section queries.
Context (H : list byte -> bytes32) (R : nodekey -> bool).
Notation tt' := (fun _ => True).
Lemma safe_gwp_loop k v rem : forall top nk sibs, safe R tt' (gwp_loop_p H k v rem top nk sibs).
Proof.
  assert (L : forall l sibs, safe R tt' (x ← (if decide (ln_key l = k) then x ← req_value v (ln_key l); Done (Ok (Some x)) else Done (Ok None)); Done (Ok (x, SMProof (Some l) (rev sibs))))).
  { intros l sibs. apply (safe_bind R tt'); [|intros x _; apply safe_any]. case_decide; [|apply safe_any]. eapply safe_bind; [apply safe_req_value|]. intros x _. apply safe_any. }
  induction rem as [|n rem IH]; intros top nk sibs; cbn [gwp_loop_p]; (eapply safe_bind; [apply safe_req_at|]); intros [|i|l] _; try apply safe_any; try apply L.
  eapply safe_bind; [apply safe_child_siblings; intros; apply safe_req_unwrap|]. intros [[ck|] s] _; [apply IH|apply safe_any].
Qed.
Lemma safe_gwp k v : safe R tt' (get_with_proof_p H k v).
Proof. unfold get_with_proof_p. generalize (key_nibbles k). intros l. apply safe_gwp_loop. Qed.
Lemma safe_range k v : safe R tt' (get_range_proof_p H k v).
Proof. unfold get_range_proof_p. eapply safe_bind; [apply safe_gwp|]. intros [x p] _. apply safe_any. Qed.
Lemma safe_root_hash v : safe R tt' (get_root_hash_p H v).
Proof. unfold get_root_hash_p. apply safe_option_stops; intros; try apply safe_any. by apply stops_failed. Qed.
Lemma safe_leaf_count v : safe R tt' (get_leaf_count_p v).
Proof. unfold get_leaf_count_p. apply safe_option_stops; intros; try apply safe_any. by apply stops_failed. Qed.
Lemma safe_root_hash_option v : R (nk_root v) = true -> safe R tt' (get_root_hash_option_p H v).
Proof. intros E. unfold get_root_hash_option_p. eapply safe_bind; [by apply safe_option|]. intros o _. apply safe_any. Qed.
Lemma safe_extreme f : forall d v nk e, safe R tt' (extreme_loop_p f d v nk e).
Proof.
  induction f as [|f IH]; intros d v nk e; cbn [extreme_loop_p]; [apply safe_any|]. eapply safe_bind; [apply safe_req_at|]. intros [|i|l] _; [apply safe_any| |apply safe_any].
  apply safe_pure. intros n _. apply safe_pure. intros [ck|] _; [apply IH|apply safe_any].
Qed.
Lemma safe_closest v e rp : forall rps, safe R tt' (closest_loop_p v e rp rps).
Proof.
  induction rp as [|i rp IH]; intros [|q rps]; cbn [closest_loop_p]; try apply safe_any. destruct (neighbor_nibble q i e) as [[nb w]|]; [|apply IH].
  cbn zeta. eapply safe_bind; [apply safe_extreme|]. intros k _. apply safe_any.
Qed.
Lemma safe_search k v rem : forall vis nk ps, safe R tt' (search_loop_p k v rem vis nk ps).
Proof.
  induction rem as [|n rem IH]; intros vis nk ps; cbn [search_loop_p]; (eapply safe_bind; [apply safe_req_at|]); intros [|i|l] _; try apply safe_any.
  cbn zeta. apply safe_pure. intros [ck|] _; [apply IH|apply safe_any].
Qed.
Lemma safe_bounding k v : safe R tt' (get_bounding_path_p k v).
Proof.
  unfold get_bounding_path_p. generalize (key_nibbles k). intros l. eapply safe_bind; [apply safe_search|]. intros [[] leaf path ps|path ps] _; try apply safe_any.
  - eapply safe_bind; [apply safe_closest|]. intros; apply safe_any.
  - eapply safe_bind; [apply safe_closest|]. intros; apply safe_any.
  - eapply safe_bind; [apply safe_closest|]. intros r _. eapply safe_bind; [apply safe_closest|]. intros; apply safe_any.
Qed.
Lemma safe_excl k v : safe R tt' (get_with_exclusion_proof_p H k v).
Proof.
  unfold get_with_exclusion_proof_p. eapply safe_bind; [apply safe_gwp|]. intros [[x|] p] _; [apply safe_any|]. eapply safe_bind; [apply safe_bounding|]. intros [[lb|] [rb|]] _; try apply safe_any.
  - eapply safe_bind; [apply safe_gwp|]. intros [? lp] _. eapply safe_bind; [apply safe_gwp|]. intros [? rp] _. apply safe_any.
  - eapply safe_bind; [apply safe_gwp|]. intros [? lp] _. apply safe_any.
  - eapply safe_bind; [apply safe_gwp|]. intros [? lp] _. apply safe_any.
Qed.
Lemma safe_iter_new v start : safe R tt' (iter_new_p v start).
Proof.
  unfold iter_new_p. generalize (key_nibbles start) (nk_root v) (@nil visit_info). intros rem. induction rem as [|n rem IH]; intros nk st; cbn [iter_new_loop_p]; (eapply safe_bind; [apply safe_req|]); intros [|i|l] _; try apply safe_any;
    try (eapply safe_bind; [apply safe_req|]; intros [|i'|l'] _; apply safe_any).
  destruct (in_child i n); [|apply safe_any]. apply safe_pure. intros x _. apply IH.
Qed.
Lemma safe_iter_index v t : safe R tt' (iter_new_by_index_p v t).
Proof.
  unfold iter_new_by_index_p. eapply safe_bind; [apply safe_req|]. intros nd _. destruct (_ <=? t); [apply safe_any|]. generalize 65 at 1. intros f. generalize 0 at 1. generalize (nk_root v). generalize (@nil visit_info). revert nd.
  induction f as [|f IH]; intros nd st nk s; cbn [iter_index_loop_p]; [apply safe_any|]. destruct nd as [|i|l]; try apply safe_any. apply safe_pure. intros [[n c] s'] _. apply safe_pure. intros x _. eapply safe_bind; [apply safe_req|]. intros nd _. apply IH.
Qed.
Lemma safe_iter_next it : safe R tt' (iter_next_p it).
Proof.
  unfold iter_next_p. destruct (it_done it); [apply safe_any|]. destruct (it_stack it) as [|x st].
  - eapply safe_bind; [apply safe_req|]. intros [|i|l] _; try apply safe_any. eapply safe_bind; [apply safe_req_value|]. intros y _. apply safe_any.
  - generalize 65 at 1. intros f. generalize (x :: st). clear. generalize (it_version it). intros v. induction f as [|f IH]; intros st; cbn [iter_next_loop_p]; [apply safe_any|]. destruct st as [|x st]; [apply safe_any|].
    apply safe_pure. intros n _. apply safe_pure. intros c _. cbn zeta. eapply safe_bind; [apply safe_req|]. intros [|i|l] _; try apply safe_any.
    + apply safe_pure. intros x' _. apply IH.
    + eapply safe_bind; [apply safe_req_value|]. intros y _. apply safe_any.
Qed.
End queries.

(** *** commits *)
Section commits.
Context (H : list byte -> bytes32) (F : version).
Notation tt' := (fun _ => True).
(** the root keys a commit of version F + 1 or later (or of version 0, for F = 0) may look at *)
Definition late_root (nk : nodekey) : bool := bool_decide (nk.2 = [] /\ (F <= nk.1)%N).
Notation R := late_root.
Definition rooted (c : cache) : Prop := R (tc_root c) = true.
Lemma R_root w : (F <= w)%N -> R (w, []) = true.
Proof. intros L. by apply bool_decide_eq_true_2. Qed.
Lemma R_path nk : nk.2 <> [] -> R nk = false.
Proof. intros N. apply bool_decide_eq_false_2. by intros [? _]. Qed.
Lemma safe_creq_node c nk : safe R tt' (creq_node c nk).
Proof. unfold creq_node. destruct (cache_cached c nk); [apply safe_any|apply safe_req]. Qed.
Lemma safe_creq_unwrap c nk : safe R tt' (creq_unwrap c nk).
Proof. unfold creq_unwrap. destruct (cache_cached c nk); [apply safe_any|apply safe_req_unwrap]. Qed.
Lemma safe_creq_option c nk {B} (Q : B -> Prop) f : (forall n, safe R Q (f (Some n))) -> (R nk = false -> stops (f None)) -> (R nk = true -> safe R Q (f None)) -> safe R Q (creq_option c nk ≫= f).
Proof. intros S1 S2 S3. unfold creq_option. destruct (cache_cached c nk); [apply S1|by apply safe_option_stops]. Qed.
Lemma safe_new next : (F <= next - 1)%N -> safe R rooted (cache_new_p next).
Proof.
  intros L. unfold cache_new_p. destruct (next =? 0)%N eqn:E.
  - apply N.eqb_eq in E. assert (F = 0%N) by lia. eapply safe_bind; [apply safe_option, R_root; unfold PRE_GENESIS_VERSION; lia|]. intros [n|] _; constructor; intros c [= <-]; apply R_root; unfold PRE_GENESIS_VERSION; lia.
  - constructor. intros c [= <-]. by apply R_root.
Qed.
Lemma safe_freeze c : rooted c -> safe R (fun c' => tc_root c' = tc_root c) (cache_freeze_p H c).
Proof.
  intros Rc. unfold cache_freeze_p. cbn zeta.
  assert (X : forall o, safe R (fun c' => tc_root c' = tc_root c) ('(c0, root_node) ← Done (match o with
    | Some n => Ok (c, n)
    | None => c' ← cache_put_node c (tc_root c) Null; Ok (c', Null)
    end); rh ← Done (node_hash H root_node);
  c ← (if (0 <? tc_next c0)%N && (bool_decide (tc_nodes c0 = ∅)) && (bool_decide (tc_stale c0 = ∅))
       then n ← creq_node c0 (tc_root c0); Done (cache_put_node c0 (nk_set_version (tc_root c) (tc_next c0)) n)
       else Done (Ok c0));
  Done (Ok (mkCache (tc_root c) (tc_next c + 1) ∅ ∅ 0 ∅ 0
        (tc_nodes c ∪ fz_nodes c) (tc_values c ∪ fz_values c)
        (set_map (pair (tc_next c)) (tc_stale c) ∪ fz_stale c)
        (fz_stats c ++ [mkStats (size (tc_nodes c)) (tc_new_leaves c) (size (tc_stale c)) (tc_stale_leaves c)])
        (fz_roots c ++ [rh]))))).
  { intros o. apply safe_pure. intros [c1 nd] E1. assert (X1 : tc_root c1 = tc_root c).
    { destruct o; [by injection E1 as <- _|]. apply bind_inv' in E1 as (c2 & E2 & E1). injection E1 as <- _. by apply put_node_root in E2. }
    apply safe_pure. intros rh _. apply (safe_bind R (fun c2 => tc_root c2 = tc_root c)); [|intros c2 E2; constructor; by intros a [= <-]].
    destruct (_ && _); [|constructor; by intros a [= <-]]. eapply safe_bind; [apply safe_creq_node|]. intros n _. constructor. intros a E. apply put_node_root in E. congruence. }
  apply safe_creq_option; [intros n; apply (X (Some n))|by rewrite Rc|intros _; apply (X None)].
Qed.
Definition ins_post (visited : list nibble) (nk : nodekey) (v : version) (c : cache) (y : put_result * option sm_proof * cache) : Prop :=
  tc_root y.2 = tc_root c /\ (visited = [] -> nk.2 = [] -> forall nk' nd, y.1.1 = Updated nk' nd -> nk' = (v, [])).
Lemma safe_internal visited nk i v n full vh c wp rec : (forall ck c, ck.2 <> [] -> safe R (fun y => tc_root y.2 = tc_root c) (rec ck c)) ->
  safe R (ins_post visited nk v c) (insert_at_internal_p H nk i v n full vh c wp rec).
Proof.
  intros Hr. unfold insert_at_internal_p. apply (safe_bind R (fun y => tc_root y.2 = tc_root c)).
  { destruct (in_child i n) as [ci|].
    - apply (safe_bind R (fun y => y.1.2 <> [])).
      + destruct wp; [|constructor; intros a [= <-]; cbn; by destruct nk.2]. eapply safe_bind; [apply safe_child_siblings, safe_creq_unwrap|]. intros [ck s] Hc. apply safe_pure. intros ck' E. destruct ck as [ck|]; [|done]. injection E as ->.
        constructor. intros a [= <-]. by apply Hc.
      + intros [ck s] Nk. eapply safe_bind; [by apply Hr|]. intros [[r p] c1] E. constructor. intros a [= <-]. exact E.
    - apply (safe_bind R tt').
      + destruct wp; [|apply safe_any]. eapply safe_bind; [apply safe_child_siblings, safe_creq_unwrap|]. intros [ck s] _. apply (safe_bind R tt'); [|intros; apply safe_any]. destruct ck; [|apply safe_any]. eapply safe_bind; [apply safe_creq_unwrap|]. intros; apply safe_any.
      + intros pf _. destruct vh; [|constructor; by intros a [= <-]]. apply safe_pure. intros [[nk' nd] c1] E. constructor. intros a [= <-]. by apply leaf_root in E as [E _]. }
  intros [[res pf] c1] E1. cbn [snd] in E1. destruct res as [unk und| |]; [..|constructor; intros a [= <-]; split; [done|by intros _ _ ? ?]].
  all: apply safe_pure; intros ch _; apply safe_pure; intros c2 E2; apply delete_node_root in E2; destruct (children_iter ch) as [|[cn ci] more]; [constructor; intros a [= <-]; split; [cbn; congruence|by intros _ _ ? ?]|];
    destruct (_ && _); cbn zeta.
  1,3: eapply safe_bind; [apply safe_creq_node|]; intros nd _; constructor; intros a E; apply bind_inv' in E as (c3 & E3 & E); apply delete_node_root in E3; apply bind_inv' in E as (c4 & E4 & E); apply put_node_root in E4; injection E as <-;
    (split; [cbn; congruence|]); cbn; intros _ N nk' nd' [= <- _]; unfold nk_set_version; by rewrite N.
  all: constructor; intros a E; apply bind_inv' in E as (i' & _ & E); apply bind_inv' in E as (c4 & E4 & E); apply put_node_root in E4; injection E as <-;
    (split; [cbn; congruence|]); cbn; intros _ N nk' nd' [= <- _]; unfold nk_set_version; by rewrite N.
Qed.
Lemma null_case rem visited nk v vh c wp (o : option node) y : (if negb (bool_decide (nk_path nk = [])) then Err (EOther "Null node exists for non-root node")
      else
        c ← (if (nk_version nk =? v)%N && (match o with Some _ => true | None => false end) then cache_delete_node c nk false else Ok c);
        match vh with
        | Some vh => '(nk', nd, c) ← create_leaf_node (nk_root v) (visited ++ rem) vh c; Ok (Updated nk' nd, with_pf wp (SMProof None []), c)
        | None => Ok (NotChanged, with_pf wp (SMProof None []), c)
        end) = Ok y -> ins_post visited nk v c y.
Proof.
  destruct (negb _); [done|]. intros E. apply bind_inv' in E as (c1 & E1 & E). assert (X : tc_root c1 = tc_root c) by (destruct (_ && _); [by eapply delete_node_root|by injection E1 as <-]).
  destruct vh; [|injection E as <-; split; [done|by intros _ _ ? ?]]. apply bind_inv' in E as ([[nk' nd] c2] & E2 & E). apply leaf_root in E2 as [E2 ->]. injection E as <-. split; [cbn; congruence|]. by intros _ _ ? ? [= <- _].
Qed.
Lemma safe_insert rem : forall visited nk v vh c wp, (nk.2 = [] -> R nk = true) -> safe R (ins_post visited nk v c) (insert_at_p H rem visited nk v vh c wp).
Proof.
  induction rem as [|n rem IH]; intros visited nk v vh c wp Rk; cbn [insert_at_p].
  all: apply safe_creq_option;
    [|intros RF; apply stops_failed; destruct (decide (nk.2 = [])) as [E|E]; [rewrite (Rk E) in RF; done|]; unfold nk_path; by rewrite bool_decide_eq_false_2|intros _; constructor; intros y; refine (null_case _ _ _ _ _ _ _ None y)].
  - intros [|i|lf]; [constructor; intros y; refine (null_case _ _ _ _ _ _ _ (Some Null) y)|by constructor|]. constructor. intros [[r p] c1] E. by apply at_leaf_root in E.
  - intros [|i|lf]; [constructor; intros y; refine (null_case _ _ _ _ _ _ _ (Some Null) y)| |].
    + apply safe_internal. intros ck c0 Nk. eapply safe_weaken; [apply IH; by intros Z|]. by intros y [E _].
    + constructor. intros [[r p] c1] E. by apply at_leaf_root in E.
Qed.
Lemma safe_put k vh v c wp : (F <= v)%N -> rooted c -> safe R (fun y => rooted y.2) (put_p H k vh v c wp).
Proof.
  intros L Rc. unfold put_p. eapply safe_bind; [by apply safe_insert|]. intros [[res pf] c1] [E1 E2]. cbn [fst snd] in *. constructor. intros y E.
  assert (Rp : (tc_root c).2 = []) by (unfold rooted, late_root in Rc; by apply bool_decide_eq_true_1 in Rc as [? _]).
  destruct res as [nk nd| |].
  - injection E as <-. cbn. unfold rooted. cbn. rewrite (E2 eq_refl Rp nk nd eq_refl). by apply R_root.
  - cbn zeta in E. apply bind_inv' in E as (c2 & E3 & E). injection E as <-. apply put_node_root in E3. unfold rooted. cbn [snd]. rewrite E3. by apply R_root.
  - injection E as <-. unfold rooted. cbn [snd]. by rewrite E1.
Qed.
Lemma safe_put_set v kvs : forall c, (F <= v)%N -> rooted c -> safe R rooted (put_set_p H v kvs c).
Proof.
  induction kvs as [|[k x] kvs IH]; intros c L Rc; cbn [put_set_p]; [constructor; by intros a [= <-]|]. cbn zeta. eapply safe_bind; [apply safe_put; [done|exact Rc]|]. intros [pf c1] R1. by apply IH.
Qed.
Lemma safe_put_sets sets : forall v c, (F <= v)%N -> rooted c -> safe R tt' (put_sets_p H v sets c).
Proof.
  induction sets as [|s sets IH]; intros v c L Rc; cbn [put_sets_p]; [apply safe_any|]. eapply safe_bind; [by apply safe_put_set|]. intros c1 R1. eapply safe_bind; [by apply safe_freeze|]. intros c2 E2. apply IH; [lia|]. unfold rooted. by rewrite E2.
Qed.
Lemma safe_put_value_sets sets first : (F <= first - 1)%N -> safe R tt' (put_value_sets_p H sets first).
Proof. intros L. unfold put_value_sets_p. eapply safe_bind; [by apply safe_new|]. intros c Rc. eapply safe_bind; [apply safe_put_sets; [lia|done]|]. intros; apply safe_any. Qed.
Lemma safe_put_set_wp v kvs : forall c, (F <= v)%N -> rooted c -> safe R (fun y => rooted y.2) (put_set_with_proof_p H v kvs c).
Proof.
  induction kvs as [|[k x] kvs IH]; intros c L Rc; cbn [put_set_with_proof_p]; [constructor; by intros a [= <-]|]. cbn zeta. eapply safe_bind; [apply safe_put; [done|exact Rc]|]. intros [pf c1] R1.
  apply safe_pure. intros p _. eapply safe_bind; [by apply IH|]. intros [ps c2] R2. constructor. by intros a [= <-].
Qed.
Lemma safe_put_sets_wp sets : forall v c, (F <= v)%N -> rooted c -> safe R tt' (put_sets_with_proof_p H v sets c).
Proof.
  induction sets as [|s sets IH]; intros v c L Rc; cbn [put_sets_with_proof_p]; [apply safe_any|]. eapply safe_bind; [by apply safe_put_set_wp|]. intros [ps c1] R1. cbn [snd] in R1. eapply safe_bind; [by apply safe_freeze|]. intros c2 E2.
  eapply safe_bind; [apply IH; [lia|]; unfold rooted; by rewrite E2|]. intros [rest c3] _. apply safe_any.
Qed.
Lemma safe_put_value_sets_wp sets first : (F <= first - 1)%N -> safe R tt' (put_value_sets_with_proof_p H sets first).
Proof. intros L. unfold put_value_sets_with_proof_p. eapply safe_bind; [by apply safe_new|]. intros c Rc. eapply safe_bind; [apply safe_put_sets_wp; [lia|done]|]. intros [ps c1] _; apply safe_any. Qed.
Lemma safe_batch_loop v kvs depth hc body ranges : (forall n sub flag c, safe R tt' (body n sub flag c)) -> forall ch flag c, safe R tt' (batch_loop_p H v kvs depth hc body ranges ch flag c).
Proof.
  intros Hb. induction ranges as [|[l r] ranges IH]; intros ch flag c; cbn [batch_loop_p]; [apply safe_any|]. do 3 (apply safe_pure; intros ? _). eapply safe_bind; [apply Hb|]. intros [[[nk nd] fl] c1] _. do 2 (apply safe_pure; intros ? _). apply IH.
Qed.
Lemma safe_batch_insert rem : forall nk v kvs depth hc c, safe R (fun y => nk.2 = [] -> y.1.1 = (v, [])) (batch_insert_at_p H rem nk v kvs depth hc c).
Proof.
  induction rem as [|rem IH]; intros nk v kvs depth hc c; cbn [batch_insert_at_p]; apply safe_pure; intros _ _; (eapply safe_bind; [apply safe_creq_node|]); intros [|i|lf] _.
  1,4: constructor; intros [[nk' nd] c'] E N; destruct (negb _); [done|]; apply bind_inv' in E as (c1 & _ & E); by apply subtree_key in E.
  2,4: constructor; intros [[nk' nd] c'] E N; apply bind_inv' in E as (c1 & _ & E); apply with_leaf_key in E; cbn [fst]; rewrite E; unfold nk_set_version; by rewrite N.
  - by constructor.
  - apply safe_pure. intros c1 _. apply safe_pure. intros rg _. apply (safe_bind R tt').
    + apply safe_batch_loop. intros n sub flag c0. apply (safe_bind R tt'); [|intros [[? ?] ?] _; apply safe_any]. destruct (in_child i n); [|apply safe_any]. eapply safe_weaken; [apply IH|done].
    + intros [[ch fl] c2] _. constructor. intros [[nk' nd] c'] E N. apply bind_inv' in E as (i' & _ & E). cbn zeta in E. apply bind_inv' in E as (c3 & _ & E). injection E as <- _ _. cbn. unfold nk_set_version. by rewrite N.
Qed.
Lemma safe_batch_sets sets : forall v c, (F <= v)%N -> rooted c -> safe R tt' (batch_sets_p H v sets c).
Proof.
  induction sets as [|[s hc] sets IH]; intros v c L Rc; cbn [batch_sets_p]; [apply safe_any|].
  assert (Rp : (tc_root c).2 = []) by (unfold rooted, late_root in Rc; by apply bool_decide_eq_true_1 in Rc as [? _]).
  apply (safe_bind R rooted); [|intros c1 R1; apply IH; [lia|done]]. unfold batch_set_p. apply safe_pure. intros _ _. cbn zeta. eapply safe_bind; [apply safe_batch_insert|]. intros [[nk nd] c1] E. cbn [fst] in E.
  rewrite put_values_root in E. rewrite (E Rp). eapply safe_weaken; [apply safe_freeze; by apply R_root|]. intros c2 E2. unfold rooted. rewrite E2. by apply R_root.
Qed.
Lemma safe_batch_put sets hs first : (F <= first - 1)%N -> safe R tt' (batch_put_value_sets_p H sets hs first).
Proof.
  intros L. unfold batch_put_value_sets_p. cbn zeta. apply safe_pure. intros _ _. eapply safe_bind; [by apply safe_new|]. intros c Rc. eapply safe_bind; [apply safe_batch_sets; [lia|done]|]. intros; apply safe_any.
Qed.
End commits.

(** *** Outcomes fixed up to failures *)
Section settled.
Context (fl : Prop) (rd : reader) (an : nodekey -> outcome (option node) -> Prop) (av : version -> key -> outcome (option value) -> Prop) (R : nodekey -> bool).
Definition settled {A} (p : prog A) : Prop := forall o, may an av p o -> o = runp rd p \/ (fl /\ failed o).
Definition fair_n : Prop := forall nk r, an nk r -> rd_node rd nk <> None \/ R nk = true -> r = Ok (rd_node rd nk) \/ (fl /\ (failed r \/ (r = Ok None /\ R nk = false))).
Definition fair_v : Prop := forall w x r, av w x r -> rd_value rd w x <> None -> r = Ok (rd_value rd w x) \/ (fl /\ (failed r \/ r = Ok None)).
Lemma stops_may {A} (p : prog A) o : stops p -> may an av p o -> failed o.
Proof. intros (o' & -> & F) M. by inversion M; subst. Qed.
Lemma settled_safe {A} (Q : A -> Prop) (p : prog A) y : fair_n -> fair_v -> safe R Q p -> runp rd p = Ok y -> settled p.
Proof.
  intros An Av S E o M. revert E S. induction M as [o|nk k r o Ar M IH|w x k r o Ar M IH]; intros E S; [by left|..]; cbn [runp] in E |- *.
  - inversion S as [|nk' k' S1 S2 S3|]; subst.
    assert (N : rd_node rd nk <> None \/ R nk = true).
    { destruct (R nk) eqn:ER; [by right|]. left. intros En. rewrite En in E. destruct (S3 eq_refl) as (o' & Ek & F). rewrite Ek in E. cbn in E. by destruct (F y). }
    destruct (An _ _ Ar N) as [->|[Fl [F|[-> F]]]].
    + apply IH; [done|]. apply S1. intros En. by destruct N as [N|N].
    + right. split; [done|]. eapply stops_may; [by apply S2|done].
    + right. split; [done|]. eapply stops_may; [by apply S3|done].
  - inversion S as [| |w' x' k' S1 S2 S3]; subst.
    destruct (rd_value rd w x) as [z|] eqn:Ez; [|destruct S3 as (o' & Ek & F); rewrite Ek in E; cbn in E; by destruct (F y)].
    destruct (Av _ _ _ Ar) as [->|[Fl [F| ->]]]; [by rewrite Ez|..].
    + rewrite Ez in *. apply IH; [done|]. apply S1.
    + right. split; [done|]. eapply stops_may; [by apply S2|done].
    + right. split; [done|]. eapply stops_may; [exact S3|done].
Qed.
Lemma may_bind {A B} (p : prog A) (f : A -> prog B) o : may an av (p ≫= f) o -> exists o1, may an av p o1 /\ match o1 with Ok a => may an av (f a) o | Err e => o = Err e | Panic => o = Panic end.
Proof.
  revert o. induction p as [o1|nk k IH|w x k IH]; intros o M.
  - exists o1. split; [constructor|]. destruct o1; [done|by inversion M; subst..].
  - change (AskNode nk k ≫= f) with (AskNode nk (fun r => k r ≫= f)) in M. inversion M as [|nk' k' r o' Ar M'|]; subst. apply IH in M' as (o1 & M1 & M2). exists o1. split; [by eapply may_node|done].
  - change (AskValue w x k ≫= f) with (AskValue w x (fun r => k r ≫= f)) in M. inversion M as [| |w' x' k' r o' Ar M']; subst. apply IH in M' as (o1 & M1 & M2). exists o1. split; [by eapply may_value|done].
Qed.
Lemma settled_bind {A B} (p : prog A) (f : A -> prog B) : settled p -> (forall a, runp rd p = Ok a -> settled (f a)) -> settled (p ≫= f).
Proof.
  intros Sp Sf o M. apply may_bind in M as (o1 & M1 & M2). rewrite runp_bind. destruct (Sp _ M1) as [->|[Fl F]].
  - destruct (runp rd p) as [a|e|] eqn:E; [by apply (Sf a)|by left|by left].
  - right. split; [done|]. destruct o1 as [a|e|]; [by destruct (F a)|by subst..].
Qed.
Lemma settled_done {A} (o : outcome A) : settled (Done o).
Proof. intros o' M. inversion M; subst. by left. Qed.
Lemma settled_node {A} nk (k : _ -> prog A) : (forall r, an nk r -> r = Ok (rd_node rd nk) \/ (fl /\ (failed r \/ r = Ok None))) -> (forall r, failed r \/ r = Ok None -> stops (k r)) -> settled (k (Ok (rd_node rd nk))) -> settled (AskNode nk k).
Proof.
  intros An St S o M. inversion M as [|nk' k' r o' Ar M'|]; subst. cbn [runp]. destruct (An _ Ar) as [->|[Fl F]]; [by apply S|]. right. split; [done|]. eapply stops_may; [by apply St|done].
Qed.
End settled.
Lemma runp_may rd (an : nodekey -> outcome (option node) -> Prop) (av : version -> key -> outcome (option value) -> Prop) {A} (p : prog A) :
  (forall nk, an nk (Ok (rd_node rd nk))) -> (forall w x, av w x (Ok (rd_value rd w x))) -> may an av p (runp rd p).
Proof. intros An Av. induction p as [o|nk k IH|w x k IH]; cbn [runp]; [constructor|by eapply may_node|by eapply may_value]. Qed.
