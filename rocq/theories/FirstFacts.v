(** Committing on a reader that has no root for the preceding version: the same as on one with an empty root there,
    provided something is inserted.  (Used for first versions above 0 and for skipped versions.) *)
From Verif Require Import Base Spec NodeType ProofDef TreeCache Tree Mock Driver KeyFacts SmtFacts ProofFacts NodeFacts Canon CanonSib ReadFacts PutFacts InsertFacts InsertInt InsertInt2 PutTop VersionFacts KeyOrder ValueFacts StoreFacts.
From Coq Require Import Lia.
Local Opaque Spec.smt.

Section agree.
Context (H : list byte -> bytes32) (rd1 rd2 : reader) (r : version).
Hypothesis A : forall nk, nk <> (r, []) -> rd_node rd1 nk = rd_node rd2 nk.
Hypothesis A1 : rd_node rd1 (r, []) = None.
Hypothesis A2 : rd_node rd2 (r, []) = Some Null.
Lemma gen_child_ne nk w n : gen_child nk w n <> (r, []).
Proof. unfold gen_child. intros [= _ E]. by apply app_eq_nil in E as [_ ?]. Qed.
Lemma cache_node_agree c nk : nk <> (r, []) -> cache_node rd1 c nk = cache_node rd2 c nk.
Proof. intros N. unfold cache_node. by rewrite A. Qed.
Lemma build_agree f g nk i s h bm : (forall w n, f (gen_child nk w n) = g (gen_child nk w n)) -> build_sibling H f nk i s h bm = build_sibling H g nk i s h bm.
Proof.
  intros E. unfold build_sibling. destruct (range_bitmaps s h bm) as [rb| |]; [rewrite !bind_Ok|done|done]. destruct (rb.1 =? 0)%N; [done|]. destruct (has_only_child _ _ _); [|done].
  destruct (nib_from_u8 _) as [n| |]; [rewrite !bind_Ok|done|done]. destruct (unwrap _) as [c| |]; [rewrite !bind_Ok|done|done]. by rewrite E.
Qed.
Lemma siblings_agree f g nk i n only bm : (forall w n, f (gen_child nk w n) = g (gen_child nk w n)) -> forall hs sibs, siblings_loop H f nk i n only bm hs sibs = siblings_loop H g nk i n only bm hs sibs.
Proof.
  intros E. induction hs as [|h IH]; intros sibs; [done|]. cbn [siblings_loop]. rewrite (build_agree f g) by done. destruct (build_sibling _ _ _ _ _ _ _) as [s| |]; [rewrite !bind_Ok|done|done].
  destruct (range_bitmaps _ _ _) as [rb| |]; [rewrite !bind_Ok|done|done]. destruct (rb.1 =? 0)%N; [done|]. destruct (only && _); [done|]. destruct (negb only && _); [done|]. apply IH.
Qed.
Lemma helper_agree f g nk i n only : (forall w n, f (gen_child nk w n) = g (gen_child nk w n)) -> get_child_with_siblings_helper H f nk i n only = get_child_with_siblings_helper H g nk i n only.
Proof. intros E. unfold get_child_with_siblings_helper. destruct (generate_bitmaps i) as [bm| |]; [rewrite !bind_Ok|done|done]. by apply siblings_agree. Qed.
Lemma helper_key f nk i n only ck s : get_child_with_siblings_helper H f nk i n only = Ok (Some ck, s) -> exists w m, ck = gen_child nk w m.
Proof.
  unfold get_child_with_siblings_helper. destruct (generate_bitmaps i) as [bm| |]; [rewrite !bind_Ok|done|done]. generalize 4%nat (@nil smnode).
  induction n0 as [|h IH]; intros sibs; [done|]. cbn [siblings_loop]. destruct (build_sibling _ _ _ _ _ _ _) as [s'| |]; [rewrite !bind_Ok|done|done].
  destruct (range_bitmaps _ _ _) as [rb| |]; [rewrite !bind_Ok|done|done]. destruct (rb.1 =? 0)%N; [done|]. destruct (only && _).
  { destruct (nib_from_u8 _) as [m| |]; [rewrite !bind_Ok|done|done]. destruct (unwrap _) as [c| |]; [rewrite !bind_Ok|done|done]. intros [= <- _]. eauto. }
  destruct (negb only && _); [|apply IH]. destruct (unwrap _) as [c| |]; [rewrite !bind_Ok|done|done]. intros [= <- _]. eauto.
Qed.
Lemma cache_node_cases c nk : cache_node rd1 c nk = cache_node rd2 c nk \/ nk = (r, []) /\ cache_node rd1 c nk = None /\ cache_node rd2 c nk = Some Null.
Proof.
  destruct (decide (nk = (r, []))) as [->|N]; [|left; by apply cache_node_agree]. unfold cache_node. rewrite A1, A2. destruct (tc_nodes c !! _); [by left|]. destruct (fz_nodes c !! _); [by left|by right].
Qed.
Lemma internal_agree nk i v n full vh c wp rec1 rec2 : (forall ck c, rec1 ck c = rec2 ck c) ->
  insert_at_internal_node H rd1 nk i v n full vh c wp rec1 = insert_at_internal_node H rd2 nk i v n full vh c wp rec2.
Proof.
  intros E. unfold insert_at_internal_node.
  match goal with |- mbind ?k1 ?X1 = mbind ?k2 ?X2 => assert (EX : X1 = X2) end.
  { unfold get_child_with_siblings, get_only_child_with_siblings. rewrite !(helper_agree (cache_node rd1 c) (cache_node rd2 c)) by (intros; apply cache_node_agree, gen_child_ne). destruct (in_child i n) as [ci|].
    - match goal with |- mbind _ ?X = mbind _ ?X => destruct X as [[ck s]| |]; [rewrite !bind_Ok|done|done] end. by rewrite E.
    - match goal with |- mbind _ ?X = mbind _ ?Y => assert (E2 : X = Y) end; [|by rewrite E2]. destruct wp; [|done].
      destruct (get_child_with_siblings_helper _ _ _ _ _ _) as [[[ck|] s]| |] eqn:Eh; [rewrite !bind_Ok|done|done|done]. apply helper_key in Eh as (w & m & ->).
      by rewrite (cache_node_agree _ _ (gen_child_ne _ _ _)). }
  rewrite EX. clear EX.
  match goal with |- mbind _ ?X = _ => destruct X as [[[res pf] c1]| |]; [rewrite !bind_Ok|done|done] end.
  destruct res as [rk rn| |]; [| |done].
  all: match goal with |- mbind _ ?X = _ => destruct X as [ch| |]; [rewrite !bind_Ok|done|done] end.
  all: destruct (cache_delete_node _ _ _) as [c2| |]; [rewrite !bind_Ok|done|done].
  all: destruct (children_iter ch) as [|[cn ci] more]; [done|].
  all: destruct (_ && _); [|done]; cbn zeta; unfold cache_get_node; by rewrite (cache_node_agree _ _ (gen_child_ne _ _ _)).
Qed.
Lemma insert_at_agree v vh wp : v <> r -> forall rem visited nk c, insert_at H rd1 rem visited nk v vh c wp = insert_at H rd2 rem visited nk v vh c wp.
Proof.
  intros Hv. assert (Z : (r =? v = false)%N) by (apply N.eqb_neq; lia). induction rem as [|n rem IH]; intros visited nk c; cbn [insert_at].
  - destruct (cache_node_cases c nk) as [->|(-> & -> & ->)]; [done|]. cbn [nk_version nk_path fst snd]. by rewrite Z.
  - destruct (cache_node_cases c nk) as [->|(-> & -> & ->)]; [|cbn [nk_version nk_path fst snd]; by rewrite Z].
    destruct (cache_node rd2 c nk) as [[|i|l]|]; [done| |done|done]. apply internal_agree. intros. apply IH.
Qed.
Lemma put_agree k vh v c wp : v <> r -> put H rd1 k vh v c wp = put H rd2 k vh v c wp.
Proof. intros Hv. unfold put. by rewrite insert_at_agree. Qed.
Lemma put_set_agree v s : v <> r -> forall c, put_set H rd1 v s c = put_set H rd2 v s c.
Proof.
  intros Hv. induction s as [|[k x] s IH]; intros c; [done|]. cbn [put_set]. rewrite put_agree by done. destruct (put _ _ _ _ _ _ _) as [[pf c1]| |]; [rewrite !bind_Ok|done|done]. apply IH.
Qed.
Lemma put_setp_agree v s : v <> r -> forall c, put_set_with_proof H rd1 v s c = put_set_with_proof H rd2 v s c.
Proof.
  intros Hv. induction s as [|[k x] s IH]; intros c; [done|]. cbn [put_set_with_proof]. rewrite put_agree by done. destruct (put _ _ _ _ _ _ _) as [[pf c1]| |]; [rewrite !bind_Ok|done|done].
  destruct (unwrap pf) as [p| |]; [rewrite !bind_Ok|done|done]. by rewrite IH.
Qed.
Lemma freeze_agree c : tc_root c <> (r, []) -> cache_freeze H rd1 c = cache_freeze H rd2 c.
Proof.
  intros N. unfold cache_freeze. rewrite cache_node_agree by done. 
  destruct (cache_node rd2 c (tc_root c)) as [nd|] eqn:E.
  - rewrite !bind_Ok. destruct (node_hash H nd) as [h| |]; [rewrite !bind_Ok|done|done]. unfold cache_get_node. by rewrite cache_node_agree.
  - destruct (cache_put_node c (tc_root c) Null) as [c1| |] eqn:P; [rewrite !bind_Ok|done|done]. cbn [node_hash]. rewrite !bind_Ok.
    assert (Rt : tc_root c1 = tc_root c) by (revert P; unfold cache_put_node; destruct (tc_nodes c !! _); [done|by intros [= <-]]).
    unfold cache_get_node. by rewrite cache_node_agree by (by rewrite Rt).
Qed.
Lemma freeze_root rd c c' : cache_freeze H rd c = Ok c' -> tc_root c' = tc_root c.
Proof.
  assert (Pr : forall c nk n c1, cache_put_node c nk n = Ok c1 -> tc_root c1 = tc_root c) by (intros c0 nk n c1; unfold cache_put_node; destruct (tc_nodes c0 !! _); [done|by intros [= <-]]).
  unfold cache_freeze. match goal with |- mbind _ ?X = _ -> _ => destruct X as [[c1 n]| |] eqn:E; [rewrite !bind_Ok|done|done] end.
  assert (R1 : tc_root c1 = tc_root c). { destruct (cache_node rd c (tc_root c)); [by injection E as -> _|]. destruct (cache_put_node c (tc_root c) Null) as [c2| |] eqn:P; [rewrite bind_Ok in E|done|done]. injection E as -> _. by eapply Pr. }
  destruct (node_hash H n) as [h| |]; [rewrite !bind_Ok|done|done].
  match goal with |- mbind _ ?X = _ -> _ => destruct X as [c2| |] eqn:E2; [rewrite !bind_Ok|done|done] end.
  assert (R2 : tc_root c2 = tc_root c1). { destruct (_ && _ && _); [|by injection E2 as ->]. destruct (cache_get_node rd c1 _) as [n2| |]; [rewrite bind_Ok in E2|done|done]. by eapply Pr. }
  intros [= <-]. cbn. congruence.
Qed.
(** further versions, once the root is elsewhere *)
Lemma put_sets_agree sets : forall v b c, (r < v)%N -> BInv H rd2 v b c -> Ready v b c -> (r < bt_root b)%N \/ match sets with s :: _ => exists k x, (k, Some x) ∈ s | [] => True end ->
  put_sets H rd1 v sets c = put_sets H rd2 v sets c /\ put_sets_with_proof H rd1 v sets c = put_sets_with_proof H rd2 v sets c.
Proof.
  induction sets as [|s sets IH]; intros v b c L BI R Hr; [done|].
  destruct (version_next H rd2 v b c s BI R) as (O & pfs & c1 & c2 & P1 & P2 & P3 & P4 & P5 & P6 & P7). set (x := vnext H v b s) in *.
  assert (Rt : (r < bt_root (after x))%N).
  { cbn [after bt_root]. destruct (a_ch (vs_a x)) eqn:Ec; [exact L|]. destruct Hr as [Hr|(k & y & Hk)]; [exact Hr|]. exfalso.
    assert (G : forall s a, (k, Some y) ∈ s -> a_ch (aset H v a s) = true).
    { clear. induction s as [|w s IH]; intros a; [by intros ?%elem_of_nil|]. rewrite elem_of_cons. intros [<-|Hk]; [|by apply IH].
      unfold aset. cbn [fold_left]. apply aset_ch. unfold astep. rewrite decide_False; [done|]. intros [? _]. done. }
    unfold x, vnext in Ec. cbn in Ec. rewrite G in Ec by exact Hk. done. }
  assert (Rc : tc_root c1 <> (r, [])).
  { rewrite <- (freeze_root _ _ _ P3). destruct P5 as (_ & E & _). rewrite E. intros E2. apply (f_equal fst) in E2. cbn [fst] in E2. rewrite E2 in Rt. by apply N.lt_irrefl in Rt. }
  destruct (IH (v + 1)%N (after x) c2 ltac:(lia) P7 P5 (or_introl Rt)) as [I1 I2].
  cbn [put_sets put_sets_with_proof]. rewrite put_set_agree, put_setp_agree by lia. rewrite P1, P2, !bind_Ok, freeze_agree by done. rewrite P3, !bind_Ok, I1, I2. done.
Qed.
End agree.

(** A reader without nodes of version [r] or later: committing [sets] from version [r + 1] on starts from the empty tree. *)
Section gap.
Context (H : list byte -> bytes32) (rd : reader) (r : version) (ver : list nibble -> version).
Hypothesis F : forall w q, (r <= w)%N -> rd_node rd (w, q) = None.
Definition with_root : reader := mkReader (fun nk => if decide (nk = (r, [])) then Some Null else rd_node rd nk) (rd_value rd) (rd_rightmost rd).
Definition gap_bt : btree := BT ∅ ver r.
Lemma put_sets_gap (sets : list wset) : match sets with s :: _ => exists k x, (k, Some x) ∈ s | [] => True end ->
  let c := cache_new rd (r + 1) in let tr := trace H (r + 1) gap_bt sets in
  Forall (vs_ok H) tr /\ exists pfss c', put_sets H rd (r + 1) sets c = Ok c' /\ put_sets_with_proof H rd (r + 1) sets c = Ok (pfss, c') /\
    pfss_ok H ∅ sets pfss /\ frozen H tr (r + 1) sets c c'.
Proof.
  intros Hs c tr. assert (Ec : c = mkCache (nk_root r) (r + 1) ∅ ∅ 0 ∅ 0 ∅ ∅ ∅ [] []).
  { unfold c, cache_new. assert (r + 1 =? 0 = false)%N as -> by (apply N.eqb_neq; lia). by replace (r + 1 - 1)%N with r by lia. }
  assert (NL : forall q, ~ lv [] q ∅) by (intros q L; by apply lv_nil_M in L).
  assert (Eb : forall nk, base with_root c nk = if decide (nk = (r, [])) then Some Null else rd_node rd nk) by (intros nk; unfold base; rewrite Ec; cbn; by rewrite lookup_empty).
  assert (BI : BInv H with_root (r + 1) gap_bt c).
  { split_and!; cbn [gap_bt bt_map bt_ver bt_root]; [| |done|lia|].
    - intros w q L. rewrite Eb, decide_False by (intros [= -> _]; lia). apply F. lia.
    - intros q L. by apply NL in L.
    - rewrite Eb, decide_True by done. f_equal. }
  assert (Rd : Ready (r + 1) gap_bt c) by (by rewrite Ec).
  destruct (put_sets_next H with_root sets (r + 1) gap_bt c BI Rd) as (Os & pfss & c' & P1 & P2 & P3 & P4 & _). split; [done|]. exists pfss, c'.
  destruct (put_sets_agree H rd with_root r) with (sets := sets) (v := (r + 1)%N) (b := gap_bt) (c := c) as [E1 E2]; [| | |lia|done|done|by right|].
  - intros nk N. cbn. by rewrite decide_False.
  - apply F. lia.
  - cbn. by rewrite decide_True.
  - by rewrite E1, E2.
Qed.
End gap.
