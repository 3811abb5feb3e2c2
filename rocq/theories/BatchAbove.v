(** Whatever the tree holds, the nodes and values that a put at version [F] stages have versions from [F] on, if the version before is there. *)
From Verif Require Import Base NodeType ProofDef TreeCache Tree ProofFacts PutFacts ThmPurged CommitMono.
From Coq Require Import Lia.

Section above.
Context (H : list byte -> bytes32) (r : reader) (F : version).
Definition abv (c : cache) : Prop :=
  (forall nk nd, tc_nodes c !! nk = Some nd -> (F <= nk.1)%N) /\ (forall nk nd, fz_nodes c !! nk = Some nd -> (F <= nk.1)%N) /\
  (forall w k x, tc_values c !! (w, k) = Some x -> (F <= w)%N) /\ (forall w k x, fz_values c !! (w, k) = Some x -> (F <= w)%N).
Definition kp (c c' : cache) : Prop := tc_next c' = tc_next c /\ (abv c -> abv c').
Lemma kp_refl c : kp c c. Proof. by split. Qed.
Lemma kp_trans c1 c2 c3 : kp c1 c2 -> kp c2 c3 -> kp c1 c3.
Proof. intros [A B] [C D]. split; [congruence|tauto]. Qed.
Lemma put_node_kp c nk nd c' : cache_put_node c nk nd = Ok c' -> (F <= nk.1)%N -> kp c c'.
Proof.
  unfold cache_put_node. destruct (tc_nodes c !! nk); [done|]. intros [= <-] L. split; [done|]. intros (A & B & C & D). split; [|done]. cbn. intros nk' nd' [[<- _]|[_ E]]%lookup_insert_Some; [done|by eapply A].
Qed.
Lemma delete_node_kp c nk b c' : cache_delete_node c nk b = Ok c' -> kp c c'.
Proof.
  unfold cache_delete_node. destruct (tc_nodes c !! nk).
  - intros E. apply bind_inv' in E as (nl & _ & E). injection E as <-. split; [done|]. intros (A & B & C & D). split; [|done]. cbn. intros nk' nd' [_ E]%lookup_delete_Some. by eapply A.
  - intros E. apply bind_inv' in E as (nl & _ & E). by injection E as <-.
Qed.
Lemma set_root_kp c nk : kp c (cache_set_root c nk).
Proof. by split. Qed.
Lemma put_value_kp c v k x : (F <= v)%N -> kp c (cache_put_value c v k x).
Proof. intros L. split; [done|]. intros (A & B & C & D). split; [done|]. split; [done|]. split; [|done]. cbn. intros w k' x' [[[= <- _] _]|[_ E]]%lookup_insert_Some; [done|by eapply C]. Qed.
Lemma leaf_kp nk full vh c nk' nd c' : create_leaf_node nk full vh c = Ok (nk', nd, c') -> (F <= nk.1)%N -> kp c c'.
Proof.
  unfold create_leaf_node. intros E. apply bind_inv' in E as (k & _ & E). cbn zeta in E. apply bind_inv' in E as (c1 & E1 & E). injection E as <- _ <-. by eapply put_node_kp.
Qed.
Lemma chain_kp cnt : forall v path nk next c nk' i c', (F <= v)%N -> chain_loop H cnt v path nk next c = Ok (nk', i, c') -> kp c c'.
Proof.
  induction cnt as [|cnt IH]; intros v path nk next c nk' i c' L E; cbn [chain_loop] in E.
  - injection E as _ _ <-. apply kp_refl.
  - apply bind_inv' in E as ([nib p'] & Ep & E). apply bind_inv' in E as (h & _ & E). apply bind_inv' in E as (i' & _ & E). apply bind_inv' in E as (c1 & E1 & E).
    eapply kp_trans; [eapply put_node_kp; [exact E1|done]|]. by eapply IH.
Qed.
Lemma at_leaf_kp nk lf v visited rem vh c wp res pf c' : (F <= v)%N -> insert_at_leaf_node H nk lf v visited rem vh c wp = Ok (res, pf, c') -> kp c c'.
Proof.
  intros L. unfold insert_at_leaf_node. cbn zeta. intros E. apply bind_inv' in E as (_ & _ & E).
  destruct (drop _ rem) as [|new_idx rem''] eqn:Er.
  - apply bind_inv' in E as (_ & _ & E). apply bind_inv' in E as (c1 & E1 & E). apply delete_node_kp in E1. eapply kp_trans; [exact E1|]. destruct vh as [vh|].
    + apply bind_inv' in E as ([[nk' n] c2] & E2 & E). apply leaf_kp in E2; [|done]. by injection E as _ _ <-.
    + injection E as _ _ <-. apply kp_refl.
  - destruct vh as [vh|]; [|injection E as _ _ <-; apply kp_refl].
    apply bind_inv' in E as (c1 & E1 & E). apply bind_inv' in E as (oi & _ & E). apply bind_inv' in E as (_ & _ & E). apply bind_inv' in E as (c2 & E2 & E).
    apply bind_inv' in E as ([[x nl] c3] & E3 & E). apply bind_inv' in E as (hn & _ & E). apply bind_inv' in E as (i & _ & E). apply bind_inv' in E as (c4 & E4 & E).
    apply bind_inv' in E as ([[nk' i'] c5] & E5 & E). injection E as _ _ <-.
    apply delete_node_kp in E1. apply put_node_kp in E2; [|done]. apply put_node_kp in E4; [|done]. apply leaf_kp in E3; [|done]. apply chain_kp in E5; [|done].
    eauto using kp_trans.
Qed.
Lemma at_internal_kp nk i v n full vh c wp rec res pf c' : (F <= v)%N ->
  (forall ck c res pf c', rec ck c = Ok (res, pf, c') -> kp c c') ->
  insert_at_internal_node H r nk i v n full vh c wp rec = Ok (res, pf, c') -> kp c c'.
Proof.
  intros L Hr E. unfold insert_at_internal_node in E. apply bind_inv' in E as ([[rs p1] c1] & E1 & E).
  assert (X : kp c c1).
  { destruct (in_child i n).
    - apply bind_inv' in E1 as ([ck sibs] & _ & E1). apply bind_inv' in E1 as ([[r2 p2] c2] & E2 & E1). injection E1 as <- _ <-. by eapply Hr.
    - apply bind_inv' in E1 as (p0 & _ & E1). destruct vh; [|injection E1 as _ _ <-; apply kp_refl]. apply bind_inv' in E1 as ([[nk' nd] c2] & E2 & E1). injection E1 as <- _ <-. by eapply leaf_kp. }
  eapply kp_trans; [exact X|]. clear X E1. cbn beta iota in E. destruct rs as [unk und| |]; [..|injection E as _ _ <-; apply kp_refl].
  all: apply bind_inv' in E as (ch & _ & E); apply bind_inv' in E as (c2 & E2 & E); apply delete_node_kp in E2; eapply kp_trans; [exact E2|]; destruct (children_iter ch) as [|[cn ci] more]; [injection E as _ _ <-; apply kp_refl|];
    destruct (_ && _); cbn zeta in E.
  1,3: apply bind_inv' in E as (nd & _ & E); apply bind_inv' in E as (c3 & E3 & E); apply delete_node_kp in E3; apply bind_inv' in E as (c4 & E4 & E); apply put_node_kp in E4; [|done]; injection E as _ _ <-; eauto using kp_trans.
  all: apply bind_inv' in E as (nd & _ & E); apply bind_inv' in E as (c4 & E4 & E); apply put_node_kp in E4; [|done]; by injection E as _ _ <-.
Qed.
Local Ltac null_case L E0 :=
  destruct (negb _); [done|]; let c1 := fresh "c1" in let E1 := fresh "E1" in apply bind_inv' in E0 as (c1 & E1 & E0);
  eapply kp_trans; [instantiate (1 := c1); destruct (_ && _); [by eapply delete_node_kp|injection E1 as <-; apply kp_refl]|];
  match type of E0 with match ?vh with _ => _ end = _ => destruct vh end; [|injection E0 as _ _ <-; apply kp_refl];
  let E2 := fresh "E2" in apply bind_inv' in E0 as ([[? ?] ?] & E2 & E0); apply leaf_kp in E2; [|exact L]; by injection E0 as _ _ <-.
Lemma insert_kp rem : forall visited nk v vh c wp res pf c', (F <= v)%N -> insert_at H r rem visited nk v vh c wp = Ok (res, pf, c') -> kp c c'.
Proof.
  induction rem as [|n rem IH]; intros visited nk v vh c wp res pf c' L E; cbn [insert_at] in E.
  - destruct (cache_node r c nk) as [[|i|lf]|]; [null_case L E|done|by apply at_leaf_kp in E|null_case L E].
  - destruct (cache_node r c nk) as [[|i|lf]|]; [null_case L E| |by apply at_leaf_kp in E|null_case L E].
    apply at_internal_kp in E; [done|done|]. intros ck c0 rs p c1 E0. by eapply IH.
Qed.
(** the root key: of version at least [F], or present in the store *)
Definition rooted (c : cache) : Prop := (tc_root c).2 = [] /\ ((F <= (tc_root c).1)%N \/ rd_node r (tc_root c) <> None).
Lemma put_kp k vh v c wp pf c' : (F <= v)%N -> rooted c -> put H r k vh v c wp = Ok (pf, c') -> kp c c' /\ rooted c'.
Proof.
  intros Lv R E. unfold put in *. apply bind_inv' in E as ([[res p] c1] & E1 & E).
  pose proof (insert_root H _ _ _ _ _ _ _ _ _ _ _ E1) as [X Y]. apply insert_kp in E1; [|done]. destruct res as [nk nd| |].
  - injection E as <- <-. split; [eapply kp_trans; [exact E1|apply set_root_kp]|]. unfold rooted. cbn. rewrite (Y eq_refl (proj1 R) nk nd eq_refl). split; [done|by left].
  - cbn zeta in E. apply bind_inv' in E as (c2 & E2 & E). injection E as <- <-. pose proof (put_node_root _ _ _ _ E2) as Er. apply put_node_kp in E2; [|done]. split; [eapply kp_trans; [exact E1|]; eapply kp_trans; [apply set_root_kp|exact E2]|].
    unfold rooted. rewrite Er. split; [done|by left].
  - injection E as <- <-. split; [done|]. unfold rooted. by rewrite X.
Qed.
Lemma freeze_kp c c' : (F <= tc_next c)%N -> rooted c -> abv c -> cache_freeze H r c = Ok c' -> tc_next c' = (tc_next c + 1)%N /\ rooted c' /\ abv c'.
Proof.
  intros L R A E. unfold cache_freeze in *. cbn zeta in *. apply bind_inv' in E as ([c1 nd] & E1 & E). cbn beta iota in *.
  assert (X : kp c c1 /\ tc_root c1 = tc_root c).
  { destruct (cache_node r c (tc_root c)) eqn:Ec; [injection E1 as <- _; split; [apply kp_refl|done]|]. apply bind_inv' in E1 as (c2 & E2 & E1). injection E1 as <- _. split; [|by eapply put_node_root].
    eapply put_node_kp; [exact E2|]. destruct R as [_ [R|R]]; [done|]. exfalso. apply R. unfold cache_node in Ec. destruct (tc_nodes c !! tc_root c); [done|]. by destruct (fz_nodes c !! tc_root c). }
  clear E1. destruct X as [[N A1] R1]. apply bind_inv' in E as (rh & _ & E). apply bind_inv' in E as (c2 & E2 & E).
  assert (X : kp c1 c2 /\ tc_root c2 = tc_root c1).
  { destruct (_ && _); [|injection E2 as <-; split; [apply kp_refl|done]]. apply bind_inv' in E2 as (n & _ & E2). split; [|by eapply put_node_root]. eapply put_node_kp; [exact E2|]. cbn. by rewrite N. }
  destruct X as [[N2 A2] R2]. injection E as <-. cbn. split; [by rewrite N2, N|]. split; [unfold rooted; cbn; by rewrite R2, R1|].
  destruct (A2 (A1 A)) as (B1 & B2 & B3 & B4). split_and!; cbn; [done| |done|].
  - intros nk nd' [E|[_ E]]%lookup_union_Some_raw; [by eapply B1|by eapply B2].
  - intros w k x [E|[_ E]]%lookup_union_Some_raw; [by eapply B3|by eapply B4].
Qed.
Lemma put_set_kp v kvs : forall c c', (F <= v)%N -> rooted c -> put_set H r v kvs c = Ok c' -> kp c c' /\ rooted c'.
Proof.
  induction kvs as [|[k x] kvs IH]; intros c c' L R E; cbn [put_set] in *; [injection E as <-; split; [apply kp_refl|done]|]. cbn zeta in *.
  apply bind_inv' in E as ([pf c1] & E1 & E). apply put_kp in E1 as [E1 R1]; [|done|exact R]. apply IH in E as [E R']; [|done..]. split; [|done].
  eapply kp_trans; [by apply put_value_kp|]. eapply kp_trans; [exact E1|exact E].
Qed.
Lemma put_set_wp_kp v kvs : forall c pfs c', (F <= v)%N -> rooted c -> put_set_with_proof H r v kvs c = Ok (pfs, c') -> kp c c' /\ rooted c'.
Proof.
  induction kvs as [|[k x] kvs IH]; intros c pfs c' L R E; cbn [put_set_with_proof] in *; [injection E as _ <-; split; [apply kp_refl|done]|]. cbn zeta in *.
  apply bind_inv' in E as ([pf c1] & E1 & E). apply put_kp in E1 as [E1 R1]; [|done|exact R]. apply bind_inv' in E as (p & _ & E). apply bind_inv' in E as ([ps c2] & E2 & E). injection E as _ <-.
  apply IH in E2 as [E2 R']; [|done..]. split; [|done].
  eapply kp_trans; [by apply put_value_kp|]. eapply kp_trans; [exact E1|exact E2].
Qed.
Lemma put_sets_kp sets : forall v c c', (F <= v)%N -> (F <= tc_next c)%N -> rooted c -> abv c -> put_sets H r v sets c = Ok c' -> abv c'.
Proof.
  induction sets as [|s sets IH]; intros v c c' L N R A E; cbn [put_sets] in *; [by injection E as <-|].
  apply bind_inv' in E as (c1 & E1 & E). apply put_set_kp in E1 as [[N1 A1] R1]; [|done..]. apply bind_inv' in E as (c2 & E2 & E). apply freeze_kp in E2 as (N2 & R2 & A2); [|by rewrite N1|done|by apply A1].
  eapply (IH (v + 1)%N c2); [lia|lia|done|done|exact E].
Qed.
Lemma put_sets_wp_kp sets : forall v c ps c', (F <= v)%N -> (F <= tc_next c)%N -> rooted c -> abv c -> put_sets_with_proof H r v sets c = Ok (ps, c') -> abv c'.
Proof.
  induction sets as [|s sets IH]; intros v c ps c' L N R A E; cbn [put_sets_with_proof] in *; [by injection E as _ <-|].
  apply bind_inv' in E as ([pf c1] & E1 & E). apply put_set_wp_kp in E1 as [[N1 A1] R1]; [|done..]. apply bind_inv' in E as (c2 & E2 & E). apply freeze_kp in E2 as (N2 & R2 & A2); [|by rewrite N1|done|by apply A1].
  apply bind_inv' in E as ([rest c3] & E3 & E). injection E as _ <-. eapply (IH (v + 1)%N c2); [lia|lia|done|done|exact E3].
Qed.
Lemma cache_new_above : (F = 0%N \/ rd_node r (F - 1, [])%N <> None) -> rooted (cache_new r F) /\ abv (cache_new r F) /\ tc_next (cache_new r F) = F.
Proof.
  intros Hr. unfold cache_new. destruct (N.eqb_spec F 0) as [->|Nz].
  - destruct (rd_node r (nk_root PRE_GENESIS_VERSION)); (split; [split; [done|left; cbn; lia]|]); (split; [|done]); split_and!; intros; lia.
  - destruct Hr as [->|Hr]; [done|]. split; [split; [done|by right]|]. split; [|done]. split_and!; cbn; intros; by rewrite lookup_empty in *.
Qed.
Lemma put_value_sets_above sets roots b : (F = 0%N \/ rd_node r (F - 1, [])%N <> None) -> put_value_sets H r sets F = Ok (roots, b) ->
  (forall nk nd, tb_nodes b !! nk = Some nd -> (F <= nk.1)%N) /\ forall w k x, tb_values b !! (w, k) = Some x -> (F <= w)%N.
Proof.
  intros Hr E. destruct (cache_new_above Hr) as (R & A & N). unfold put_value_sets in E. apply bind_inv' in E as (c & E & E'). injection E' as <- <-. cbn.
  apply put_sets_kp in E as (_ & B & _ & C); [|lia|lia|done|done]. done.
Qed.
Lemma put_value_sets_wp_above sets rps b : (F = 0%N \/ rd_node r (F - 1, [])%N <> None) -> put_value_sets_with_proof H r sets F = Ok (rps, b) ->
  (forall nk nd, tb_nodes b !! nk = Some nd -> (F <= nk.1)%N) /\ forall w k x, tb_values b !! (w, k) = Some x -> (F <= w)%N.
Proof.
  intros Hr E. destruct (cache_new_above Hr) as (R & A & N). unfold put_value_sets_with_proof in E. apply bind_inv' in E as ([ps c] & E & E'). cbn in E'. injection E' as _ <-. cbn.
  apply put_sets_wp_kp in E as (_ & B & _ & C); [|lia|lia|done|done]. done.
Qed.
End above.
