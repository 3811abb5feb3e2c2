(** Facts about Requests.v: with one fixed reader the programs are the functions of the model; what a program that
    stops at every failed request can and cannot return. *)
From Verif Require Import Base NodeType ProofDef TreeCache Tree BatchTree Exclusion Iterator ProofFacts Requests.
From Coq Require Import Lia.

Lemma obind_ext {A B} (x : outcome A) (f g : A -> outcome B) : (forall a, f a = g a) -> (x ≫= f) = (x ≫= g).
Proof. destruct x; cbn; [auto|done|done]. Qed.
Lemma runp_bind rd {A B} (p : prog A) (f : A -> prog B) : runp rd (p ≫= f) = (a ← runp rd p; runp rd (f a)).
Proof. unfold mbind, prog_bind. induction p as [[]|nk k IH|w x k IH]; cbn; [done..|apply IH|apply IH]. Qed.

(** *** One fixed reader *)
Section fixed.
Context (H : list byte -> bytes32) (rd : reader).
Lemma req_at_ok top v nk : runp rd (req_at top v nk) = ok_or (if top then EMissingRoot v else EMissingNode) (rd_node rd nk).
Proof. destruct top; cbn; by destruct (rd_node rd nk). Qed.
Lemma req_node_ok nk : runp rd (req_node nk) = rd_get_node rd nk.
Proof. cbn. unfold rd_get_node. by destruct (rd_node rd nk). Qed.
Lemma req_value_ok w k : runp rd (req_value w k) = rd_get_value rd w k.
Proof. cbn. unfold rd_get_value. by destruct (rd_value rd w k). Qed.
Lemma req_unwrap_ok nk : runp rd (req_node_unwrap nk) = unwrap (rd_node rd nk).
Proof. cbn. by destruct (rd_node rd nk). Qed.
Lemma cached_eq c nk : cache_node rd c nk = match cache_cached c nk with Some n => Some n | None => rd_node rd nk end.
Proof. unfold cache_node, cache_cached. by destruct (tc_nodes c !! nk). Qed.
Lemma creq_option_ok c nk : runp rd (creq_option c nk) = Ok (cache_node rd c nk).
Proof. unfold creq_option. rewrite cached_eq. by destruct (cache_cached c nk). Qed.
Lemma creq_node_ok c nk : runp rd (creq_node c nk) = cache_get_node rd c nk.
Proof. unfold creq_node, cache_get_node. rewrite cached_eq. destruct (cache_cached c nk); [done|]. rewrite req_node_ok. done. Qed.
Lemma creq_unwrap_ok c nk : runp rd (creq_unwrap c nk) = unwrap (cache_node rd c nk).
Proof. unfold creq_unwrap. rewrite cached_eq. destruct (cache_cached c nk); [done|]. apply req_unwrap_ok. Qed.

Section sib.
Context (rn : nodekey -> prog node) (r : nodekey -> option node) (Hrn : forall nk, runp rd (rn nk) = unwrap (r nk)).
Lemma build_sibling_ok nk i s h bm : runp rd (build_sibling_p H rn nk i s h bm) = build_sibling H r nk i s h bm.
Proof.
  unfold build_sibling_p, build_sibling. rewrite runp_bind. cbn [runp]. apply obind_ext. intros rb. destruct (rb.1 =? 0)%N; [done|]. destruct (has_only_child h rb.1 rb.2); [|done].
  rewrite runp_bind. cbn [runp]. apply obind_ext. intros n. rewrite runp_bind. cbn [runp]. apply obind_ext. intros c. rewrite runp_bind, Hrn. apply obind_ext. intros nd. done.
Qed.
Lemma siblings_loop_ok nk i n only bm hs : forall sibs, runp rd (siblings_loop_p H rn nk i n only bm hs sibs) = siblings_loop H r nk i n only bm hs sibs.
Proof.
  induction hs as [|h IH]; intros sibs; cbn [siblings_loop_p siblings_loop]; [done|]. rewrite runp_bind, build_sibling_ok. apply obind_ext. intros s. cbn zeta. rewrite runp_bind. cbn [runp]. apply obind_ext. intros rb.
  destruct (rb.1 =? 0)%N; [done|]. destruct (only && _).
  { rewrite runp_bind. cbn [runp]. apply obind_ext. intros m. rewrite runp_bind. cbn [runp]. apply obind_ext. done. }
  destruct (negb only && _); [|apply IH]. rewrite runp_bind. cbn [runp]. apply obind_ext. done.
Qed.
Lemma child_siblings_ok nk i n only : runp rd (child_siblings_p H rn nk i n only) = get_child_with_siblings_helper H r nk i n only.
Proof. unfold child_siblings_p, get_child_with_siblings_helper. rewrite runp_bind. cbn [runp]. apply obind_ext. intros bm. apply siblings_loop_ok. Qed.
End sib.
Lemma gwp_loop_ok k v rem : forall top nk sibs, runp rd (gwp_loop_p H k v rem top nk sibs) = get_with_proof_loop H rd k v rem top nk sibs.
Proof.
  induction rem as [|n rem IH]; intros top nk sibs; cbn [gwp_loop_p get_with_proof_loop]; rewrite runp_bind, req_at_ok; apply obind_ext; intros [|i|l]; try done.
  - rewrite runp_bind. cbn [runp]. case_decide; [|done]. rewrite runp_bind, req_value_ok. done.
  - rewrite runp_bind, (child_siblings_ok _ (rd_node rd) req_unwrap_ok). unfold get_only_child_with_siblings. apply obind_ext. intros [ck s]. destruct ck; [apply IH|done].
  - rewrite runp_bind. cbn [runp]. case_decide; [|done]. rewrite runp_bind, req_value_ok. done.
Qed.
Lemma get_with_proof_p_ok k v : runp rd (get_with_proof_p H k v) = get_with_proof H rd k v.
Proof. unfold get_with_proof_p, get_with_proof. generalize (key_nibbles k). intros l. apply gwp_loop_ok. Qed.
Lemma get_range_proof_p_ok k v : runp rd (get_range_proof_p H k v) = get_range_proof H rd k v.
Proof. unfold get_range_proof_p, get_range_proof. rewrite runp_bind, get_with_proof_p_ok. apply obind_ext. by intros [x p]. Qed.
Lemma get_p_ok k v : runp rd (get_p k v) = get rd k v.
Proof. done. Qed.
Lemma get_root_hash_p_ok v : runp rd (get_root_hash_p H v) = get_root_hash H rd v.
Proof. done. Qed.
Lemma get_root_hash_option_p_ok v : runp rd (get_root_hash_option_p H v) = get_root_hash_option H rd v.
Proof. done. Qed.
Lemma get_leaf_count_p_ok v : runp rd (get_leaf_count_p v) = get_leaf_count rd v.
Proof. done. Qed.
Lemma extreme_ok f : forall d v nk e, runp rd (extreme_loop_p f d v nk e) = extreme_loop rd f d v nk e.
Proof.
  induction f as [|f IH]; intros d v nk e; cbn [extreme_loop_p extreme_loop]; [done|]. rewrite runp_bind, req_at_ok. apply obind_ext. intros [|i|l]; [done| |done].
  rewrite runp_bind. cbn [runp]. apply obind_ext. intros n. rewrite runp_bind. cbn [runp]. apply obind_ext. intros [ck|]; [apply IH|done].
Qed.
Lemma closest_ok v e rp : forall rps, runp rd (closest_loop_p v e rp rps) = closest_loop rd v e rp rps.
Proof.
  induction rp as [|i rp IH]; intros [|q rps]; cbn [closest_loop_p closest_loop]; [done..|]. destruct (neighbor_nibble q i e) as [[nb w]|]; [|apply IH].
  cbn zeta. rewrite runp_bind, extreme_ok. done.
Qed.
Lemma search_ok k v rem : forall vis nk ps, runp rd (search_loop_p k v rem vis nk ps) = search_loop rd k v rem vis nk ps.
Proof.
  induction rem as [|n rem IH]; intros vis nk ps; cbn [search_loop_p search_loop]; rewrite runp_bind, req_at_ok; apply obind_ext; intros [|i|l]; try done.
  cbn zeta. rewrite runp_bind. cbn [runp]. apply obind_ext. intros [ck|]; [apply IH|done].
Qed.
Lemma bounding_ok k v : runp rd (get_bounding_path_p k v) = get_bounding_path rd k v.
Proof.
  unfold get_bounding_path_p, get_bounding_path, search_for_closest_node, search_closest_extreme_node. rewrite runp_bind, search_ok. apply obind_ext. intros [[] leaf path ps|path ps].
  - done.
  - rewrite runp_bind, closest_ok. done.
  - rewrite runp_bind, closest_ok. done.
  - rewrite runp_bind, closest_ok. apply obind_ext. intros r. rewrite runp_bind, closest_ok. done.
Qed.
Lemma get_with_exclusion_proof_p_ok k v : runp rd (get_with_exclusion_proof_p H k v) = get_with_exclusion_proof H rd k v.
Proof.
  unfold get_with_exclusion_proof_p, get_with_exclusion_proof. rewrite runp_bind, get_with_proof_p_ok. apply obind_ext. intros [[x|] p]; [done|]. rewrite runp_bind, bounding_ok. apply obind_ext. intros [[lb|] [rb|]].
  - rewrite runp_bind, get_with_proof_p_ok. apply obind_ext. intros [? lp]. rewrite runp_bind, get_with_proof_p_ok. apply obind_ext. by intros [? rp].
  - rewrite runp_bind, get_with_proof_p_ok. apply obind_ext. by intros [? lp].
  - rewrite runp_bind, get_with_proof_p_ok. apply obind_ext. by intros [? lp].
  - done.
Qed.
Lemma iter_new_loop_ok v start rem : forall nk st, runp rd (iter_new_loop_p v start rem nk st) = iter_new_loop rd v start rem nk st.
Proof.
  induction rem as [|n rem IH]; intros nk st; cbn [iter_new_loop_p iter_new_loop]; rewrite runp_bind, req_node_ok; apply obind_ext; intros [|i|l]; try done;
    try (rewrite runp_bind, req_node_ok; apply obind_ext; by intros [|i'|l']).
  destruct (in_child i n); [|done]. rewrite runp_bind. cbn [runp]. apply obind_ext. intros x. apply IH.
Qed.
Lemma iter_new_p_ok v start : runp rd (iter_new_p v start) = iter_new rd v start.
Proof. unfold iter_new_p, iter_new. generalize (key_nibbles start). intros l. apply iter_new_loop_ok. Qed.
Lemma iter_index_loop_ok f : forall v t s nk nd st, runp rd (iter_index_loop_p f v t s nk nd st) = iter_index_loop rd f v t s nk nd st.
Proof.
  induction f as [|f IH]; intros v t s nk nd st; cbn [iter_index_loop_p iter_index_loop]; [done|]. destruct nd as [|i|l]; [done| |done].
  rewrite runp_bind. cbn [runp]. apply obind_ext. intros [[n c] s']. rewrite runp_bind. cbn [runp]. apply obind_ext. intros x. rewrite runp_bind, req_node_ok. apply obind_ext. intros nd. apply IH.
Qed.
Lemma iter_new_by_index_p_ok v t : runp rd (iter_new_by_index_p v t) = iter_new_by_index rd v t.
Proof. unfold iter_new_by_index_p, iter_new_by_index. rewrite runp_bind, req_node_ok. apply obind_ext. intros nd. destruct (_ <=? t); [done|]. apply iter_index_loop_ok. Qed.
Lemma iter_next_loop_ok f : forall v st, runp rd (iter_next_loop_p f v st) = iter_next_loop rd f v st.
Proof.
  induction f as [|f IH]; intros v st; cbn [iter_next_loop_p iter_next_loop]; [done|]. destruct st as [|x st]; [done|].
  rewrite runp_bind. cbn [runp]. apply obind_ext. intros n. rewrite runp_bind. cbn [runp]. apply obind_ext. intros c. cbn zeta. rewrite runp_bind, req_node_ok. apply obind_ext. intros [|i|l]; [done|..].
  - rewrite runp_bind. cbn [runp]. apply obind_ext. intros x'. apply IH.
  - rewrite runp_bind, req_value_ok. done.
Qed.
Lemma iter_next_p_ok it : runp rd (iter_next_p it) = iter_next rd it.
Proof.
  unfold iter_next_p, iter_next. destruct (it_done it); [done|]. destruct (it_stack it); [|apply iter_next_loop_ok]. rewrite runp_bind, req_node_ok. apply obind_ext. intros [|i|l]; [done..|].
  rewrite runp_bind, req_value_ok. done.
Qed.
(** commits *)
Lemma cache_new_p_ok next : runp rd (cache_new_p next) = Ok (cache_new rd next).
Proof. unfold cache_new_p, cache_new. destruct (next =? 0)%N; [|done]. rewrite runp_bind. cbn [runp req_node_option]. rewrite bind_Ok. by destruct (rd_node rd _). Qed.
Lemma freeze_ok c : runp rd (cache_freeze_p H c) = cache_freeze H rd c.
Proof.
  unfold cache_freeze_p, cache_freeze. cbn zeta. rewrite runp_bind, creq_option_ok, bind_Ok, runp_bind. cbn [runp]. apply obind_ext. intros [c1 nd]. rewrite runp_bind. cbn [runp]. apply obind_ext. intros rh.
  rewrite runp_bind. destruct (_ && _); [|done]. rewrite runp_bind, creq_node_ok. cbn [runp]. done.
Qed.
Lemma internal_ok nk i v n full vh c wp rec rec' : (forall ck c, runp rd (rec ck c) = rec' ck c) ->
  runp rd (insert_at_internal_p H nk i v n full vh c wp rec) = insert_at_internal_node H rd nk i v n full vh c wp rec'.
Proof.
  intros Hr. unfold insert_at_internal_p, insert_at_internal_node. rewrite runp_bind.
  match goal with |- ?a ≫= _ = ?b ≫= _ => assert (a = b) as -> end.
  { destruct (in_child i n) as [ci|].
    - rewrite runp_bind. destruct wp.
      + rewrite runp_bind, (child_siblings_ok _ _ (creq_unwrap_ok c)). unfold get_child_with_siblings. destruct (get_child_with_siblings_helper _ _ _ _ _ _) as [[[ck|] s]| |]; [|done..].
        rewrite !bind_Ok. cbn [unwrap]. rewrite runp_bind. cbn [runp]. rewrite !bind_Ok. rewrite runp_bind, Hr. apply obind_ext. intros [[r p] c1]. done.
      + cbn [runp]. rewrite !bind_Ok, runp_bind, Hr. apply obind_ext. intros [[r p] c1]. done.
    - rewrite runp_bind. match goal with |- ?a ≫= _ = ?b ≫= _ => assert (a = b) as -> end.
      + destruct wp; [|done]. rewrite runp_bind, (child_siblings_ok _ _ (creq_unwrap_ok c)). unfold get_only_child_with_siblings. apply obind_ext. intros [[ck|] s]; rewrite runp_bind; [|done]. rewrite runp_bind, creq_unwrap_ok. done.
      + apply obind_ext. intros pf. destruct vh; [|done]. rewrite runp_bind. cbn [runp]. apply obind_ext. intros [[? ?] ?]. done. }
  apply obind_ext. intros [[res pf] c1]. destruct res as [unk und| |]; [..|done].
  all: rewrite runp_bind; cbn [runp]; apply obind_ext; intros ch; rewrite runp_bind; cbn [runp]; apply obind_ext; intros c2; destruct (children_iter ch) as [|[cn ci] more]; [done|];
    destruct (_ && _); [|done]; cbn zeta; rewrite runp_bind, creq_node_ok; done.
Qed.
Lemma insert_at_ok rem : forall visited nk v vh c wp, runp rd (insert_at_p H rem visited nk v vh c wp) = insert_at H rd rem visited nk v vh c wp.
Proof.
  induction rem as [|n rem IH]; intros visited nk v vh c wp; cbn [insert_at_p insert_at]; rewrite runp_bind, creq_option_ok, bind_Ok; destruct (cache_node rd c nk) as [[|i|lf]|]; try done.
  apply internal_ok. intros ck c0. apply IH.
Qed.
Lemma put_p_ok k vh v c wp : runp rd (put_p H k vh v c wp) = put H rd k vh v c wp.
Proof. unfold put_p, put. rewrite runp_bind, insert_at_ok. apply obind_ext. intros [[res pf] c1]. done. Qed.
Lemma put_set_ok v kvs : forall c, runp rd (put_set_p H v kvs c) = put_set H rd v kvs c.
Proof. induction kvs as [|[k x] kvs IH]; intros c; cbn [put_set_p put_set]; [done|]. cbn zeta. rewrite runp_bind, put_p_ok. apply obind_ext. intros [pf c1]. apply IH. Qed.
Lemma put_sets_ok sets : forall v c, runp rd (put_sets_p H v sets c) = put_sets H rd v sets c.
Proof.
  induction sets as [|s sets IH]; intros v c; cbn [put_sets_p put_sets]; [done|]. rewrite runp_bind, put_set_ok. apply obind_ext. intros c1. rewrite runp_bind, freeze_ok. apply obind_ext. intros c2. apply IH.
Qed.
Lemma put_value_sets_p_ok sets first : runp rd (put_value_sets_p H sets first) = put_value_sets H rd sets first.
Proof. unfold put_value_sets_p, put_value_sets. rewrite runp_bind, cache_new_p_ok, bind_Ok, runp_bind, put_sets_ok. done. Qed.
Lemma put_set_wp_ok v kvs : forall c, runp rd (put_set_with_proof_p H v kvs c) = put_set_with_proof H rd v kvs c.
Proof.
  induction kvs as [|[k x] kvs IH]; intros c; cbn [put_set_with_proof_p put_set_with_proof]; [done|]. cbn zeta. rewrite runp_bind, put_p_ok. apply obind_ext. intros [pf c1].
  rewrite runp_bind. cbn [runp]. apply obind_ext. intros pf'. rewrite runp_bind, IH. apply obind_ext. by intros [pfs c2].
Qed.
Lemma put_sets_wp_ok sets : forall v c, runp rd (put_sets_with_proof_p H v sets c) = put_sets_with_proof H rd v sets c.
Proof.
  induction sets as [|s sets IH]; intros v c; cbn [put_sets_with_proof_p put_sets_with_proof]; [done|]. rewrite runp_bind, put_set_wp_ok. apply obind_ext. intros [pfs c1]. rewrite runp_bind, freeze_ok. apply obind_ext. intros c2.
  rewrite runp_bind, IH. apply obind_ext. by intros [rest c3].
Qed.
Lemma put_value_sets_with_proof_p_ok sets first : runp rd (put_value_sets_with_proof_p H sets first) = put_value_sets_with_proof H rd sets first.
Proof. unfold put_value_sets_with_proof_p, put_value_sets_with_proof. rewrite runp_bind, cache_new_p_ok, bind_Ok, runp_bind, put_sets_wp_ok. apply obind_ext. by intros [pfs c]. Qed.
Lemma batch_loop_ok v kvs depth hc body body' ranges : (forall n sub flag c, runp rd (body n sub flag c) = body' n sub flag c) ->
  forall ch flag c, runp rd (batch_loop_p H v kvs depth hc body ranges ch flag c) = batch_loop H v kvs depth hc body' ranges ch flag c.
Proof.
  intros Hb. induction ranges as [|[l r] ranges IH]; intros ch flag c; cbn [batch_loop_p batch_loop]; [done|].
  do 3 (rewrite runp_bind; cbn [runp]; apply obind_ext; intros ?). rewrite runp_bind, Hb. apply obind_ext. intros [[[nk nd] fl] c1]. do 2 (rewrite runp_bind; cbn [runp]; apply obind_ext; intros ?). apply IH.
Qed.
Lemma batch_insert_ok rem : forall nk v kvs depth hc c, runp rd (batch_insert_at_p H rem nk v kvs depth hc c) = batch_insert_at H rd rem nk v kvs depth hc c.
Proof.
  induction rem as [|rem IH]; intros nk v kvs depth hc c; cbn [batch_insert_at_p batch_insert_at]; rewrite runp_bind; cbn [runp]; apply obind_ext; intros _; rewrite runp_bind, creq_node_ok; apply obind_ext; intros [|i|lf]; try done.
  rewrite runp_bind. cbn [runp]. apply obind_ext. intros c1. rewrite runp_bind. cbn [runp]. apply obind_ext. intros rg. rewrite runp_bind. erewrite batch_loop_ok; [apply obind_ext; by intros [[ch fl] c2]|].
  intros n sub flag c0. cbn beta. rewrite runp_bind. destruct (in_child i n); [rewrite IH|]; apply obind_ext; by intros [[? ?] ?].
Qed.
Lemma batch_sets_ok sets : forall v c, runp rd (batch_sets_p H v sets c) = batch_sets H rd v sets c.
Proof.
  induction sets as [|[s hc] sets IH]; intros v c; cbn [batch_sets_p batch_sets]; [done|]. rewrite runp_bind. match goal with |- ?a ≫= _ = ?b ≫= _ => assert (a = b) as -> end; [|apply obind_ext; intros c1; apply IH].
  unfold batch_set_p, batch_set. rewrite runp_bind. cbn [runp]. apply obind_ext. intros _. cbn zeta. rewrite runp_bind, batch_insert_ok. apply obind_ext. intros [[nk nd] c1]. apply freeze_ok.
Qed.
Lemma batch_put_value_sets_p_ok sets hs first : runp rd (batch_put_value_sets_p H sets hs first) = batch_put_value_sets H rd sets hs first.
Proof.
  unfold batch_put_value_sets_p, batch_put_value_sets. cbn zeta. rewrite runp_bind. cbn [runp]. apply obind_ext. intros _. rewrite runp_bind, cache_new_p_ok, bind_Ok, runp_bind, batch_sets_ok. done.
Qed.
End fixed.
