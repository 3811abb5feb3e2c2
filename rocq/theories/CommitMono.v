(** Commits read the store monotonically: a commit that succeeds on a store with fewer nodes gives the same on one
    with more, provided both have the same root nodes for the versions the commit looks at. *)
From Verif Require Import Base NodeType ProofDef TreeCache Tree BatchTree ProofFacts ThmPurged.
From Coq Require Import Lia.

Section mono.
Context (H : list byte -> bytes32) (rd rd' : reader) (F : version).
Context (Le : forall nk nd, rd_node rd nk = Some nd -> rd_node rd' nk = Some nd).
Context (Fresh : forall w, (F <= w)%N -> rd_node rd' (w, []) = None).
(** the root keys a commit may look at *)
Definition rootish (nk : nodekey) : Prop := exists w, nk = (w, []) /\ ((F <= w)%N \/ rd_node rd (w, []) <> None).
Lemma rootish_agree nk : rootish nk -> rd_node rd nk = rd_node rd' nk.
Proof.
  intros (w & -> & [L|N]).
  - rewrite (Fresh w L). destruct (rd_node rd (w, [])) eqn:E; [|done]. apply Le in E. by rewrite Fresh in E.
  - destruct (rd_node rd (w, [])) eqn:E; [|done]. symmetry. by apply Le.
Qed.
Lemma node_le c nk nd : cache_node rd c nk = Some nd -> cache_node rd' c nk = Some nd.
Proof. unfold cache_node. destruct (tc_nodes c !! nk); [done|]. destruct (fz_nodes c !! nk); [done|]. apply Le. Qed.
Lemma node_agree c nk : rootish nk -> cache_node rd c nk = cache_node rd' c nk.
Proof. intros R. unfold cache_node. by rewrite (rootish_agree nk R). Qed.
Lemma cget_le c nk nd : cache_get_node rd c nk = Ok nd -> cache_get_node rd' c nk = Ok nd.
Proof. unfold cache_get_node. destruct (cache_node rd c nk) eqn:E; cbn; [|done]. intros [= ->]. by rewrite (node_le _ _ _ E). Qed.
Lemma loop_le c nk i n only bm hs sibs y : siblings_loop H (cache_node rd c) nk i n only bm hs sibs = Ok y -> siblings_loop H (cache_node rd' c) nk i n only bm hs sibs = Ok y.
Proof. apply (siblings_loop_le H (mkReader (cache_node rd c) (rd_value rd) None) (mkReader (cache_node rd' c) (rd_value rd) None)). apply node_le. Qed.
Lemma helper_le c nk i n only y : get_child_with_siblings_helper H (cache_node rd c) nk i n only = Ok y -> get_child_with_siblings_helper H (cache_node rd' c) nk i n only = Ok y.
Proof. unfold get_child_with_siblings_helper. intros E. apply bind_inv' in E as (bm & -> & E). rewrite bind_Ok. by apply loop_le. Qed.
Lemma loop_child r nk i n only bm hs : forall sibs ck s, siblings_loop H r nk i n only bm hs sibs = Ok (Some ck, s) -> ck.2 <> [].
Proof.
  induction hs as [|h IH]; intros sibs ck s E; cbn [siblings_loop] in E; [done|].
  apply bind_inv' in E as (sb & _ & E). cbn zeta in E. apply bind_inv' in E as (rb & _ & E).
  destruct (rb.1 =? 0)%N; [done|]. destruct (only && has_only_child h rb.1 rb.2).
  - apply bind_inv' in E as (m & _ & E). apply bind_inv' in E as (c & _ & E). injection E as <- _. cbn. by destruct nk.2.
  - destruct (negb only && _); [|by eapply IH]. apply bind_inv' in E as (c & _ & E). injection E as <- _. cbn. by destruct nk.2.
Qed.

(** *** one key *)
Lemma internal_le nk i v n full vh c wp rec rec' y :
  (forall ck c y, ck.2 <> [] -> rec ck c = Ok y -> rec' ck c = Ok y) ->
  insert_at_internal_node H rd nk i v n full vh c wp rec = Ok y -> insert_at_internal_node H rd' nk i v n full vh c wp rec' = Ok y.
Proof.
  intros Hr E. unfold insert_at_internal_node in *. apply bind_inv' in E as ([[res pf] c1] & E1 & E).
  match goal with |- ?e ≫= _ = _ => assert (X : e = Ok (res, pf, c1)) end.
  { destruct (in_child i n) as [ci|].
    - apply bind_inv' in E1 as ([ck sibs] & E0 & E1). apply bind_inv' in E1 as ([[r2 p2] c2] & E2 & E1).
      match goal with |- ?e ≫= _ = _ => assert (E0' : e = Ok (ck, sibs) /\ ck.2 <> []) end.
      { destruct wp.
        - apply bind_inv' in E0 as ([ck0 s0] & Es & E0). unfold get_child_with_siblings in *. rewrite (helper_le _ _ _ _ _ _ Es), bind_Ok. split; [exact E0|].
          destruct ck0 as [ck0|]; [|done]. cbn in E0. injection E0 as -> ->. unfold get_child_with_siblings_helper in Es. apply bind_inv' in Es as (bm & _ & Es). by eapply loop_child.
        - injection E0 as <- <-. split; [done|]. cbn. by destruct nk.2. }
      destruct E0' as [-> Nk]. rewrite bind_Ok. cbn beta iota. rewrite (Hr _ _ _ Nk E2), bind_Ok. exact E1.
    - apply bind_inv' in E1 as (p0 & E0 & E1). destruct wp; [|injection E0 as <-; rewrite bind_Ok; exact E1].
      apply bind_inv' in E0 as ([ck sibs] & Es & E0). unfold get_only_child_with_siblings in *. rewrite (helper_le _ _ _ _ _ _ Es), bind_Ok. cbn beta iota in *.
      destruct ck as [ck|]; [|rewrite E0, bind_Ok; exact E1]. apply bind_inv' in E0 as (lf & El & E0). apply bind_inv' in El as (nd & En & El).
      destruct (cache_node rd c ck) as [nd'|] eqn:Ec; [|done]. injection En as ->. rewrite (node_le _ _ _ Ec). cbn [unwrap]. rewrite bind_Ok, El, bind_Ok, E0, bind_Ok. exact E1. }
  rewrite X, bind_Ok. clear X E1. cbn beta iota in *. destruct res as [unk und| |]; [..|exact E].
  all: apply bind_inv' in E as (ch & -> & E); rewrite bind_Ok; apply bind_inv' in E as (c2 & -> & E); rewrite bind_Ok; destruct (children_iter ch) as [|[cn ci] more]; [exact E|];
    destruct (_ && _); [|exact E]; cbn zeta in *; apply bind_inv' in E as (nd & En & E); rewrite (cget_le _ _ _ En), bind_Ok; exact E.
Qed.
Lemma insert_le rem : forall visited nk v vh c wp y, (nk.2 = [] -> rootish nk) ->
  insert_at H rd rem visited nk v vh c wp = Ok y -> insert_at H rd' rem visited nk v vh c wp = Ok y.
Proof.
  induction rem as [|n rem IH]; intros visited nk v vh c wp y R E.
  all: assert (EN : cache_node rd' c nk = cache_node rd c nk \/ (cache_node rd c nk = None /\ nk.2 <> [])) by
    (destruct (cache_node rd c nk) eqn:Ec; [left; by apply node_le|]; destruct (decide (nk.2 = [])) as [N|N]; [left; by rewrite <- (node_agree c nk (R N))|by right]).
  all: destruct EN as [EN|[EN N]]; cbn [insert_at] in *; [rewrite EN|rewrite EN in E; unfold nk_path in E; by rewrite bool_decide_eq_false_2 in E].
  - destruct (cache_node rd c nk) as [[]|]; exact E.
  - destruct (cache_node rd c nk) as [[|i|lf]|]; [exact E| |exact E..]. eapply internal_le; [|exact E].
    intros ck c0 y0 Nk E0. eapply IH; [by intros Z|exact E0].
Qed.

(** what an insertion leaves of the root key *)
Lemma put_node_root c nk nd c' : cache_put_node c nk nd = Ok c' -> tc_root c' = tc_root c.
Proof. unfold cache_put_node. destruct (tc_nodes c !! nk); [done|]. by intros [= <-]. Qed.
Lemma delete_node_root c nk b c' : cache_delete_node c nk b = Ok c' -> tc_root c' = tc_root c.
Proof.
  unfold cache_delete_node. destruct (tc_nodes c !! nk).
  - intros E. apply bind_inv' in E as (nl & _ & E). by injection E as <-.
  - intros E. apply bind_inv' in E as (nl & _ & E). by injection E as <-.
Qed.
Lemma leaf_root nk full vh c nk' nd c' : create_leaf_node nk full vh c = Ok (nk', nd, c') -> tc_root c' = tc_root c /\ nk' = nk.
Proof.
  unfold create_leaf_node. intros E. apply bind_inv' in E as (k & _ & E). cbn zeta in E. apply bind_inv' in E as (c1 & E1 & E). injection E as <- _ <-. split; [by eapply put_node_root|done].
Qed.
Lemma pop_snoc l n : path_pop (l ++ [n]) = Some (n, l).
Proof. unfold path_pop. rewrite rev_app_distr. cbn. by rewrite rev_involutive. Qed.
Lemma chain_root cnt : forall v path nk next c nk' i c', chain_loop H cnt v path nk next c = Ok (nk', i, c') -> nk = (v, path) ->
  tc_root c' = tc_root c /\ nk'.1 = v /\ nk'.2 = take (length path - cnt) path.
Proof.
  induction cnt as [|cnt IH]; intros v path nk next c nk' i c' E N; cbn [chain_loop] in E.
  - injection E as <- _ <-. subst. cbn. rewrite take_ge by lia. done.
  - apply bind_inv' in E as ([nib p'] & Ep & E). apply bind_inv' in E as (h & _ & E). apply bind_inv' in E as (i' & _ & E). apply bind_inv' in E as (c1 & E1 & E).
    destruct path as [|z path _] using rev_ind; [done|]. rewrite pop_snoc in Ep. injection Ep as <- <-.
    destruct (IH _ _ _ _ _ _ _ _ E eq_refl) as (A & B & C). split_and!; [|done|].
    + rewrite A. by eapply put_node_root.
    + rewrite C, app_length. cbn. rewrite take_app_le by lia. f_equal. lia.
Qed.
Lemma at_leaf_root nk lf v visited rem vh c wp res pf c' : insert_at_leaf_node H nk lf v visited rem vh c wp = Ok (res, pf, c') ->
  tc_root c' = tc_root c /\ (visited = [] -> nk.2 = [] -> forall nk' nd, res = Updated nk' nd -> nk' = (v, [])).
Proof.
  unfold insert_at_leaf_node. cbn zeta. intros E. apply bind_inv' in E as (_ & _ & E).
  set (common := lcp rem (drop (lcp visited (key_nibbles (ln_key lf))) (key_nibbles (ln_key lf)))) in *.
  destruct (drop common rem) as [|new_idx rem''] eqn:Er.
  - apply bind_inv' in E as (_ & _ & E). apply bind_inv' in E as (c1 & E1 & E). apply delete_node_root in E1. destruct vh as [vh|].
    + apply bind_inv' in E as ([[nk' n] c2] & E2 & E). apply leaf_root in E2 as [E2 ->]. injection E as <- _ <-. split; [congruence|]. intros _ N nk' nd [= <- _]. unfold nk_set_version. by rewrite N.
    + injection E as <- _ <-. done.
  - destruct vh as [vh|]; [|injection E as <- _ <-; done].
    apply bind_inv' in E as (c1 & E1 & E). apply bind_inv' in E as (oi & _ & E). apply bind_inv' in E as (_ & _ & E). apply bind_inv' in E as (c2 & E2 & E).
    apply bind_inv' in E as ([[x nl] c3] & E3 & E). apply bind_inv' in E as (hn & _ & E). apply bind_inv' in E as (i & _ & E). apply bind_inv' in E as (c4 & E4 & E).
    apply bind_inv' in E as ([[nk' i'] c5] & E5 & E). injection E as <- _ <-.
    apply delete_node_root in E1. apply put_node_root in E2, E4. apply leaf_root in E3 as [E3 _]. apply chain_root in E5 as (E5 & V & P); [|done]. split; [congruence|].
    intros -> N nk0 nd [= <- _]. destruct nk' as [w p]. cbn in V, P. subst w. f_equal. rewrite P. cbn.
    rewrite take_length. assert (common <= length rem) by (apply (f_equal length) in Er; rewrite drop_length in Er; cbn in Er; lia).
    replace (common `min` length rem - common) with 0 by lia. done.
Qed.
Lemma at_internal_root r nk i v n full vh c wp rec res pf c' :
  (forall ck c res pf c', rec ck c = Ok (res, pf, c') -> tc_root c' = tc_root c) ->
  insert_at_internal_node H r nk i v n full vh c wp rec = Ok (res, pf, c') ->
  tc_root c' = tc_root c /\ (nk.2 = [] -> forall nk' nd, res = Updated nk' nd -> nk' = (v, [])).
Proof.
  intros Hr E. unfold insert_at_internal_node in E. apply bind_inv' in E as ([[rs p1] c1] & E1 & E).
  assert (X : tc_root c1 = tc_root c).
  { destruct (in_child i n).
    - apply bind_inv' in E1 as ([ck sibs] & _ & E1). apply bind_inv' in E1 as ([[r2 p2] c2] & E2 & E1). injection E1 as <- _ <-. by eapply Hr.
    - apply bind_inv' in E1 as (p0 & _ & E1). destruct vh; [|by injection E1 as <- _ <-]. apply bind_inv' in E1 as ([[nk' nd] c2] & E2 & E1). injection E1 as <- _ <-. by apply leaf_root in E2 as [-> _]. }
  rewrite <- X. clear X E1. cbn beta iota in E. destruct rs as [unk und| |]; [..|by injection E as <- _ <-].
  all: apply bind_inv' in E as (ch & _ & E); apply bind_inv' in E as (c2 & E2 & E); apply delete_node_root in E2; rewrite <- E2; destruct (children_iter ch) as [|[cn ci] more]; [by injection E as <- _ <-|];
    destruct (_ && _); cbn zeta in E.
  1,3: apply bind_inv' in E as (nd & _ & E); apply bind_inv' in E as (c3 & E3 & E); apply delete_node_root in E3; apply bind_inv' in E as (c4 & E4 & E); apply put_node_root in E4; injection E as <- _ <-; split; [congruence|];
    intros N nk' nd' [= <- _]; unfold nk_set_version; by rewrite N.
  all: apply bind_inv' in E as (nd & _ & E); apply bind_inv' in E as (c4 & E4 & E); apply put_node_root in E4; injection E as <- _ <-; split; [congruence|];
    intros N nk' nd' [= <- _]; unfold nk_set_version; by rewrite N.
Qed.
Local Ltac null_case E0 :=
  destruct (negb _); [done|]; let c1 := fresh "c1" in let E1 := fresh "E1" in apply bind_inv' in E0 as (c1 & E1 & E0);
  match type of E1 with _ = Ok ?c2 => match goal with |- _ = tc_root ?c /\ _ => assert (tc_root c2 = tc_root c) as <- by (destruct (_ && _); [by eapply delete_node_root|by injection E1 as <-]) end end;
  match type of E0 with match ?vh with _ => _ end = _ => destruct vh end; [|by injection E0 as <- _ <-];
  let E2 := fresh "E2" in apply bind_inv' in E0 as ([[? ?] ?] & E2 & E0); apply leaf_root in E2 as [E2 ->]; injection E0 as <- _ <-; split; [done|]; by intros _ _ ? ? [= <- _].
Lemma insert_root r rem : forall visited nk v vh c wp res pf c', insert_at H r rem visited nk v vh c wp = Ok (res, pf, c') ->
  tc_root c' = tc_root c /\ (visited = [] -> nk.2 = [] -> forall nk' nd, res = Updated nk' nd -> nk' = (v, [])).
Proof.
  induction rem as [|n rem IH]; intros visited nk v vh c wp res pf c' E; cbn [insert_at] in E.
  - destruct (cache_node r c nk) as [[|i|lf]|]; [null_case E|done|by apply at_leaf_root in E|null_case E].
  - destruct (cache_node r c nk) as [[|i|lf]|]; [null_case E| |by apply at_leaf_root in E|null_case E].
    apply at_internal_root in E as [A B]; [split; [done|]; intros _; exact B|]. intros ck c0 rs p c1 E0. by apply IH in E0 as [-> _].
Qed.
Lemma put_le k vh v c wp pf c' : (F <= v)%N -> rootish (tc_root c) -> put H rd k vh v c wp = Ok (pf, c') -> put H rd' k vh v c wp = Ok (pf, c') /\ rootish (tc_root c').
Proof.
  intros Lv R E. unfold put in *. apply bind_inv' in E as ([[res p] c1] & E1 & E).
  pose proof (insert_root _ _ _ _ _ _ _ _ _ _ _ E1) as [X Y]. rewrite (insert_le _ _ _ _ _ _ _ _ (fun _ => R) E1), bind_Ok. split; [exact E|]. clear E1.
  assert (Rv : rootish (v, [])) by (exists v; split; [done|by left]).
  destruct res as [nk nd| |].
  - injection E as <- <-. cbn. destruct R as (w & Rw & _). rewrite (Y eq_refl (f_equal snd Rw) nk nd eq_refl). exact Rv.
  - cbn zeta in E. apply bind_inv' in E as (c2 & E2 & E). injection E as <- <-. apply put_node_root in E2. rewrite E2. exact Rv.
  - injection E as <- <-. by rewrite X.
Qed.

(** *** value sets *)
Lemma freeze_le c c' : rootish (tc_root c) -> cache_freeze H rd c = Ok c' -> cache_freeze H rd' c = Ok c' /\ tc_root c' = tc_root c.
Proof.
  intros R E. unfold cache_freeze in *. rewrite <- (node_agree c _ R). cbn zeta in *. apply bind_inv' in E as ([c1 nd] & E1 & E). rewrite E1, bind_Ok. cbn beta iota in *.
  assert (X : tc_root c1 = tc_root c).
  { destruct (cache_node rd c (tc_root c)); [by injection E1 as <- _|]. apply bind_inv' in E1 as (c2 & E2 & E1). injection E1 as <- _. by apply put_node_root in E2. }
  clear E1. apply bind_inv' in E as (rh & -> & E). rewrite bind_Ok. apply bind_inv' in E as (c2 & E2 & E). destruct (_ && _).
  - apply bind_inv' in E2 as (n & En & E2). rewrite (cget_le _ _ _ En), bind_Ok, E2, bind_Ok. split; [exact E|]. injection E as <-. cbn. apply put_node_root in E2. congruence.
  - injection E2 as ->. rewrite bind_Ok. split; [exact E|]. by injection E as <-.
Qed.
Lemma put_set_le v kvs : forall c c', (F <= v)%N -> rootish (tc_root c) -> put_set H rd v kvs c = Ok c' -> put_set H rd' v kvs c = Ok c' /\ rootish (tc_root c').
Proof.
  induction kvs as [|[k x] kvs IH]; intros c c' Lv R E; cbn [put_set] in *; [injection E as <-; done|]. cbn zeta in *.
  apply bind_inv' in E as ([pf c1] & E1 & E). apply put_le in E1 as [E1 R1]; [|done|exact R]. rewrite E1, bind_Ok. cbn beta iota in *. by apply IH.
Qed.
Lemma put_set_wp_le v kvs : forall c pfs c', (F <= v)%N -> rootish (tc_root c) -> put_set_with_proof H rd v kvs c = Ok (pfs, c') -> put_set_with_proof H rd' v kvs c = Ok (pfs, c') /\ rootish (tc_root c').
Proof.
  induction kvs as [|[k x] kvs IH]; intros c pfs c' Lv R E; cbn [put_set_with_proof] in *; [injection E as <- <-; done|]. cbn zeta in *.
  apply bind_inv' in E as ([pf c1] & E1 & E). apply put_le in E1 as [E1 R1]; [|done|exact R]. rewrite E1, bind_Ok. cbn beta iota in *.
  apply bind_inv' in E as (p & -> & E). rewrite bind_Ok. apply bind_inv' in E as ([ps c2] & E2 & E). apply IH in E2 as [E2 R2]; [|done..]. rewrite E2, bind_Ok. split; [exact E|]. by injection E as _ <-.
Qed.
Lemma put_sets_le sets : forall v c c', (F <= v)%N -> rootish (tc_root c) -> put_sets H rd v sets c = Ok c' -> put_sets H rd' v sets c = Ok c'.
Proof.
  induction sets as [|s sets IH]; intros v c c' Lv R E; cbn [put_sets] in *; [done|].
  apply bind_inv' in E as (c1 & E1 & E). apply put_set_le in E1 as [E1 R1]; [|done..]. rewrite E1, bind_Ok. apply bind_inv' in E as (c2 & E2 & E). apply freeze_le in E2 as [E2 R2]; [|done].
  rewrite E2, bind_Ok. eapply IH; [lia|congruence|exact E].
Qed.
Lemma put_sets_wp_le sets : forall v c y, (F <= v)%N -> rootish (tc_root c) -> put_sets_with_proof H rd v sets c = Ok y -> put_sets_with_proof H rd' v sets c = Ok y.
Proof.
  induction sets as [|s sets IH]; intros v c y Lv R E; cbn [put_sets_with_proof] in *; [done|].
  apply bind_inv' in E as ([ps c1] & E1 & E). apply put_set_wp_le in E1 as [E1 R1]; [|done..]. rewrite E1, bind_Ok. cbn beta iota in *. apply bind_inv' in E as (c2 & E2 & E). apply freeze_le in E2 as [E2 R2]; [|done].
  rewrite E2, bind_Ok. apply bind_inv' in E as ([rest c3] & E3 & E). assert (rootish (tc_root c2)) as R3 by congruence. assert (F <= v + 1)%N as Lv' by lia. rewrite (IH _ _ _ Lv' R3 E3), bind_Ok. exact E.
Qed.
Lemma batch_loop_le v kvs depth hc body body' ranges : (forall n sub flag c y, body n sub flag c = Ok y -> body' n sub flag c = Ok y) ->
  forall ch flag c y, batch_loop H v kvs depth hc body ranges ch flag c = Ok y -> batch_loop H v kvs depth hc body' ranges ch flag c = Ok y.
Proof.
  intros Hb. induction ranges as [|[l r] ranges IH]; intros ch flag c y E; cbn [batch_loop] in *; [done|].
  apply bind_inv' in E as (kv & -> & E). rewrite bind_Ok. apply bind_inv' in E as (n & -> & E). rewrite bind_Ok. apply bind_inv' in E as (sub & -> & E). rewrite bind_Ok.
  apply bind_inv' in E as ([[[nk nd] fl] c1] & E1 & E). rewrite (Hb _ _ _ _ _ E1), bind_Ok. cbn beta iota in *. apply bind_inv' in E as (h & -> & E). rewrite bind_Ok. apply bind_inv' in E as (t & -> & E). rewrite bind_Ok. by apply IH.
Qed.
Lemma batch_insert_le rem : forall nk v kvs depth hc c y, batch_insert_at H rd rem nk v kvs depth hc c = Ok y -> batch_insert_at H rd' rem nk v kvs depth hc c = Ok y.
Proof.
  induction rem as [|rem IH]; intros nk v kvs depth hc c y E; cbn [batch_insert_at] in *; apply bind_inv' in E as (u & -> & E); rewrite bind_Ok; apply bind_inv' in E as (nd & En & E); rewrite (cget_le _ _ _ En), bind_Ok; [exact E|].
  destruct nd as [|i|lf]; [exact E| |exact E]. apply bind_inv' in E as (c1 & -> & E). rewrite bind_Ok. apply bind_inv' in E as (rg & -> & E). rewrite bind_Ok. apply bind_inv' in E as ([[ch fl] c2] & El & E).
  match goal with |- ?e ≫= _ = _ => assert (X : e = Ok (ch, fl, c2)) end; [|rewrite X, bind_Ok; exact E].
  eapply batch_loop_le; [|exact El]. cbn beta. intros n sub flag c0 y0 E0. destruct (in_child i n); [|exact E0].
  apply bind_inv' in E0 as (z & Ez & E0). rewrite (IH _ _ _ _ _ _ _ Ez), bind_Ok. exact E0.
Qed.
Lemma with_leaf_key rem nk v lf kvs depth hc c nk' nd c' : batch_create_with_leaf H rem nk v lf kvs depth hc c = Ok (nk', nd, c') -> nk' = nk.
Proof.
  assert (Z : forall (X : outcome (nodekey * node * cache)), (forall a b c0, X = Ok (a, b, c0) -> a = nk) -> match kvs with [(k, vh)] => if decide (k = ln_key lf) then (c ← cache_put_node c nk (Leaf (LeafNode (ln_key lf) vh)); Ok (nk, Leaf (LeafNode (ln_key lf) vh), c)) else X | _ => X end = Ok (nk', nd, c') -> nk' = nk).
  { intros X HX E. destruct kvs as [|[k vh] [|z kvs]]; [by eapply HX| |by eapply HX]. case_decide; [|by eapply HX]. apply bind_inv' in E as (c1 & _ & E). by injection E as <-. }
  destruct rem as [|rem]; cbn [batch_create_with_leaf]; apply Z; [done|]. intros a b c0 E.
  apply bind_inv' in E as (bu & _ & E). apply bind_inv' in E as (rg & _ & E). apply bind_inv' in E as ([[ch fl] c2] & _ & E). cbn beta iota in E. apply bind_inv' in E as ([ch' c3] & _ & E). cbn beta iota in E.
  apply bind_inv' in E as (i & _ & E). apply bind_inv' in E as (c4 & _ & E). by injection E as <-.
Qed.
Lemma subtree_key rem nk v kvs depth hc c nk' nd c' : batch_create_subtree H rem nk v kvs depth hc c = Ok (nk', nd, c') -> nk' = nk.
Proof.
  assert (Z : forall (X : outcome (nodekey * node * cache)), (forall a b c0, X = Ok (a, b, c0) -> a = nk) -> match kvs with [(k, vh)] => c ← cache_put_node c nk (Leaf (LeafNode k vh)); Ok (nk, Leaf (LeafNode k vh), c) | _ => X end = Ok (nk', nd, c') -> nk' = nk).
  { intros X HX E. destruct kvs as [|[k vh] [|z kvs]]; [by eapply HX| |by eapply HX]. apply bind_inv' in E as (c1 & _ & E). by injection E as <-. }
  destruct rem as [|rem]; cbn [batch_create_subtree]; apply Z; [done|]. intros a b c0 E.
  apply bind_inv' in E as (rg & _ & E). apply bind_inv' in E as ([[ch fl] c2] & _ & E). cbn beta iota in E.
  apply bind_inv' in E as (i & _ & E). apply bind_inv' in E as (c4 & _ & E). by injection E as <-.
Qed.
Lemma batch_insert_root r rem nk v kvs depth hc c nk' nd c' : nk.2 = [] -> batch_insert_at H r rem nk v kvs depth hc c = Ok (nk', nd, c') -> nk' = (v, []).
Proof.
  intros N E. destruct rem as [|rem]; cbn [batch_insert_at] in E; apply bind_inv' in E as (u & _ & E); apply bind_inv' in E as (n & _ & E); destruct n as [|i|lf].
  - destruct (negb _); [done|]. apply bind_inv' in E as (c1 & _ & E). by apply subtree_key in E.
  - done.
  - apply bind_inv' in E as (c1 & _ & E). apply with_leaf_key in E. rewrite E. unfold nk_set_version. by rewrite N.
  - destruct (negb _); [done|]. apply bind_inv' in E as (c1 & _ & E). by apply subtree_key in E.
  - apply bind_inv' in E as (c1 & _ & E). apply bind_inv' in E as (rg & _ & E). apply bind_inv' in E as ([[ch fl] c2] & _ & E). cbn beta iota in E. apply bind_inv' in E as (i' & _ & E). cbn zeta in E. apply bind_inv' in E as (c3 & _ & E).
    injection E as <- _ _. unfold nk_set_version. by rewrite N.
  - apply bind_inv' in E as (c1 & _ & E). apply with_leaf_key in E. rewrite E. unfold nk_set_version. by rewrite N.
Qed.
Lemma put_values_root v l : forall c, tc_root (put_values v l c) = tc_root c.
Proof. induction l as [|[k x] l IH]; intros c; [done|]. unfold put_values in *. cbn. by rewrite IH. Qed.
Lemma batch_sets_le sets : forall v c c', (F <= v)%N -> rootish (tc_root c) -> batch_sets H rd v sets c = Ok c' -> batch_sets H rd' v sets c = Ok c'.
Proof.
  induction sets as [|[s hc] sets IH]; intros v c c' Lv R E; cbn [batch_sets] in *; [done|]. apply bind_inv' in E as (c1 & E1 & E). unfold batch_set in *.
  apply bind_inv' in E1 as (u & -> & E1). rewrite bind_Ok. cbn zeta in *. apply bind_inv' in E1 as ([[nk nd] c2] & E2 & E1). rewrite (batch_insert_le _ _ _ _ _ _ _ _ E2), bind_Ok. cbn beta iota in *.
  assert (nk = (v, [])) as ->. { eapply batch_insert_root; [|exact E2]. rewrite put_values_root. by destruct R as (w & -> & _). }
  apply freeze_le in E1 as [E1 R1]; [|exists v; split; [done|by left]]. rewrite E1, bind_Ok. eapply IH; [lia| |exact E]. rewrite R1. exists v. split; [done|by left].
Qed.
End mono.
