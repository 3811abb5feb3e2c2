(** C80: versions are u64. *)
From Verif Require Import Base Spec NodeType ProofDef TreeCache Tree BatchTree Mock Driver ProofFacts ThmProof Demo Toy Version64.
From Coq Require Import Lia.

(** *** No write changes the version the cache is at *)
Section next.
Context (H : list byte -> bytes32) (rd : reader).
Lemma n_put c nk n c' : cache_put_node c nk n = Ok c' -> tc_next c' = tc_next c.
Proof. unfold cache_put_node. destruct (tc_nodes c !! nk); [done|]. by intros [= <-]. Qed.
Lemma n_delete c nk l c' : cache_delete_node c nk l = Ok c' -> tc_next c' = tc_next c.
Proof. unfold cache_delete_node. destruct (tc_nodes c !! nk); intros R; apply bind_ok in R as [y [_ R]]; by injection R as <-. Qed.
Ltac nx1 :=
  match goal with
  | E : (_ ≫= _) = Ok _ |- _ => apply bind_ok in E as [? [? E]]
  | x : _ * _ |- _ => destruct x
  | E : Ok (_, _, _, _) = Ok (_, _, _, _) |- _ => injection E as ? ? ? ?; subst
  | E : Ok (_, _, _) = Ok (_, _, _) |- _ => injection E as ? ? ?; subst
  | E : Ok (_, _) = Ok (_, _) |- _ => injection E as ? ?; subst
  | E : Ok _ = Ok _ |- _ => injection E as ?; subst
  | E : Panic = Ok _ |- _ => discriminate E
  | E : Err _ = Ok _ |- _ => discriminate E
  | E : cache_put_node _ _ _ = Ok _ |- _ => apply n_put in E
  | E : cache_delete_node _ _ _ = Ok _ |- _ => apply n_delete in E
  | E : match ?x with _ => _ end = Ok _ |- _ => destruct x eqn:?
  end.
Ltac nx := cbn zeta in *; repeat nx1; cbn [tc_next cache_set_root cache_put_value] in *; try congruence.
Lemma n_leaf nk full vh c nk' nd c' : create_leaf_node nk full vh c = Ok (nk', nd, c') -> tc_next c' = tc_next c.
Proof. unfold create_leaf_node. intros E. nx. Qed.
Lemma n_chain n v : forall path nk i c nk' i' c', chain_loop H n v path nk i c = Ok (nk', i', c') -> tc_next c' = tc_next c.
Proof. induction n as [|n IH]; intros path nk i c nk' i' c' E; cbn [chain_loop] in E; nx. apply IH in E. congruence. Qed.
Lemma n_insert_leaf nk lf v vis rem vh c wp res pf c' : insert_at_leaf_node H nk lf v vis rem vh c wp = Ok (res, pf, c') -> tc_next c' = tc_next c.
Proof.
  unfold insert_at_leaf_node. intros E. nx; repeat match goal with E : create_leaf_node _ _ _ _ = Ok _ |- _ => apply n_leaf in E | E : chain_loop _ _ _ _ _ _ _ = Ok _ |- _ => apply n_chain in E end; congruence.
Qed.
Lemma n_internal nk i v n full vh c wp rec res pf c' : (forall ck c res pf c', rec ck c = Ok (res, pf, c') -> tc_next c' = tc_next c) ->
  insert_at_internal_node H rd nk i v n full vh c wp rec = Ok (res, pf, c') -> tc_next c' = tc_next c.
Proof.
  intros Hr E. unfold insert_at_internal_node in E. apply bind_ok in E as [[[res1 pf1] c1] [E1 E]].
  assert (E2 : tc_next c1 = tc_next c).
  { clear E. destruct (in_child i n) as [ci|].
    - apply bind_ok in E1 as [[ck sibs] [_ E1]]. apply bind_ok in E1 as [[[r p] c2] [E2 E1]]. apply Hr in E2. nx.
    - apply bind_ok in E1 as [p [_ E1]]. destruct vh; nx. match goal with E : create_leaf_node _ _ _ _ = Ok _ |- _ => apply n_leaf in E end. congruence. }
  clear E1. destruct res1; nx.
Qed.
Lemma n_insert rem : forall vis nk v vh c wp res pf c', insert_at H rd rem vis nk v vh c wp = Ok (res, pf, c') -> tc_next c' = tc_next c.
Proof.
  induction rem as [|n rem IH]; intros vis nk v vh c wp res pf c' E; cbn [insert_at] in E; destruct (cache_node rd c nk) as [[|i|lf]|].
  all: try exact (n_insert_leaf _ _ _ _ _ _ _ _ _ _ _ E). all: try discriminate E.
  all: try (refine (n_internal _ _ _ _ _ _ _ _ _ _ _ _ _ E); intros ? ? ? ? ? E'; exact (IH _ _ _ _ _ _ _ _ _ E')).
  all: nx; repeat match goal with E : create_leaf_node _ _ _ _ = Ok _ |- _ => apply n_leaf in E end; congruence.
Qed.
Lemma n_put_one k vh v c wp pf c' : put H rd k vh v c wp = Ok (pf, c') -> tc_next c' = tc_next c.
Proof. unfold put. intros E. apply bind_ok in E as [[[res pf1] c1] [E1 E]]. apply n_insert in E1. nx. Qed.
Lemma n_set v s : forall c c', put_set H rd v s c = Ok c' -> tc_next c' = tc_next c.
Proof. induction s as [|[k x] s IH]; intros c c' E; cbn [put_set] in E; [by injection E as <-|]. cbn zeta in E. apply bind_ok in E as [[pf c1] [E1 E]]. apply n_put_one in E1. apply IH in E. cbn in E1. congruence. Qed.
Lemma n_set_p v s : forall c ps c', put_set_with_proof H rd v s c = Ok (ps, c') -> tc_next c' = tc_next c.
Proof.
  induction s as [|[k x] s IH]; intros c ps c' E; cbn [put_set_with_proof] in E; [by injection E as _ <-|]. cbn zeta in E. apply bind_ok in E as [[pf c1] [E1 E]]. apply n_put_one in E1.
  apply bind_ok in E as [p [_ E]]. apply bind_ok in E as [[ps2 c2] [E2 E]]. injection E as _ <-. apply IH in E2. cbn in E1. congruence.
Qed.
Lemma n_loop v kvs depth hc body : (forall n sub flag c x, body n sub flag c = Ok x -> tc_next x.2 = tc_next c) -> forall rs ch flag c x, batch_loop H v kvs depth hc body rs ch flag c = Ok x -> tc_next x.2 = tc_next c.
Proof.
  intros Hb. induction rs as [|[l r] rs IH]; intros ch flag c x E; cbn [batch_loop] in E; [by injection E as <-|].
  apply bind_ok in E as [kv [_ E]]. apply bind_ok in E as [n [_ E]]. apply bind_ok in E as [sub [_ E]]. apply bind_ok in E as [[[[nk nd] fl] c1] [E1 E]]. apply Hb in E1. cbn [snd] in E1.
  apply bind_ok in E as [h [_ E]]. apply bind_ok in E as [t [_ E]]. apply IH in E. congruence.
Qed.
Lemma n_create rem : forall nk v kvs depth hc c x, batch_create_subtree H rem nk v kvs depth hc c = Ok x -> tc_next x.2 = tc_next c.
Proof.
  assert (One : forall nk nd c (x : nodekey * node * cache), (c ← cache_put_node c nk nd; Ok (nk, nd, c)) = Ok x -> tc_next x.2 = tc_next c).
  { intros nk nd c x E. apply bind_ok in E as [c1 [E1 E]]. injection E as <-. by apply n_put in E1. }
  induction rem as [|rem IH]; intros nk v kvs depth hc c x E; cbn [batch_create_subtree] in E.
  - destruct kvs as [|[k vh] [|? ?]]; [done|by apply One in E|done].
  - assert (M : (ranges ← nri_ranges kvs depth;
          '(ch, _, c) ← batch_loop H v kvs depth hc
            (fun n sub flag c =>
               '(cnk, cnd, c) ← batch_create_subtree H rem (gen_child nk v n) v sub (S depth) hc c;
               Ok (cnk, cnd, flag, c))
            ranges ∅ false c;
          i ← internal_new ch;
          c ← cache_put_node c nk (Internal i);
          Ok (nk, Internal i, c)) = Ok x -> tc_next x.2 = tc_next c).
    { clear E. intros E. apply bind_ok in E as [rs [_ E]]. apply bind_ok in E as [[[ch fl] c1] [E1 E]]. apply n_loop in E1.
      - apply bind_ok in E as [i [_ E]]. apply bind_ok in E as [c2 [E2 E]]. injection E as <-. apply n_put in E2. cbn [snd] in *. congruence.
      - intros n sub flag c0 y Ey. apply bind_ok in Ey as [[[a b] c2] [E2 Ey]]. injection Ey as <-. by apply IH in E2. }
    destruct kvs as [|[k vh] [|? ?]]; [by apply M|by apply One in E|by apply M].
Qed.
Lemma n_with_leaf rem : forall nk v lf kvs depth hc c x, batch_create_with_leaf H rem nk v lf kvs depth hc c = Ok x -> tc_next x.2 = tc_next c.
Proof.
  induction rem as [|rem IH]; intros nk v lf kvs depth hc c x E; cbn [batch_create_with_leaf] in E.
  - destruct kvs as [|[k vh] [|? ?]]; [done| |done]. case_decide; [|done]. cbn zeta in E. apply bind_ok in E as [c1 [E1 E]]. injection E as <-. by apply n_put in E1.
  - assert (M : (bucket ← get_nibble (ln_key lf) depth;
        ranges ← nri_ranges kvs depth;
        '(ch, isolated, c) ← batch_loop H v kvs depth hc
          (fun n sub flag c =>
             if bool_decide (bucket = n) then
               '(cnk, cnd, c) ← batch_create_with_leaf H rem (gen_child nk v n) v lf sub (S depth) hc c;
               Ok (cnk, cnd, false, c)
             else
               '(cnk, cnd, c) ← batch_create_subtree H rem (gen_child nk v n) v sub (S depth) hc c;
               Ok (cnk, cnd, flag, c))
          ranges ∅ true c;
        '(ch, c) ←
          (if (isolated : bool) then
             c ← cache_put_node c (gen_child nk v bucket) (Leaf lf);
             Ok (<[ bucket := Child (leaf_hash H lf) v NTLeaf ]> ch, c)
           else Ok (ch, c));
        i ← internal_new ch;
        c ← cache_put_node c nk (Internal i);
        Ok (nk, Internal i, c)) = Ok x -> tc_next x.2 = tc_next c).
    { clear E. intros E. apply bind_ok in E as [bu [_ E]]. apply bind_ok in E as [rs [_ E]]. apply bind_ok in E as [[[ch iso] c1] [E1 E]]. apply n_loop in E1.
      - apply bind_ok in E as [[ch2 c2] [E2 E]]. apply bind_ok in E as [i [_ E]]. apply bind_ok in E as [c3 [E3 E]]. injection E as <-. apply n_put in E3. cbn [snd] in *.
        assert (tc_next c2 = tc_next c1). { destruct iso; [|by injection E2 as _ <-]. apply bind_ok in E2 as [c4 [E4 E2]]. injection E2 as _ <-. by apply n_put in E4. } congruence.
      - intros n sub flag c0 y Ey. case_bool_decide; apply bind_ok in Ey as [[[a b] c2] [E2 Ey]]; injection Ey as <-; [by apply IH in E2|by apply n_create in E2]. }
    destruct kvs as [|[k vh] [|? ?]]; [by apply M| |by apply M]. case_decide; [|by apply M]. cbn zeta in E. apply bind_ok in E as [c1 [E1 E]]. injection E as <-. by apply n_put in E1.
Qed.
Lemma n_batch rem : forall nk v kvs depth hc c x, batch_insert_at H rd rem nk v kvs depth hc c = Ok x -> tc_next x.2 = tc_next c.
Proof.
  induction rem as [|rem IH]; intros nk v kvs depth hc c x E; cbn [batch_insert_at] in E; apply bind_ok in E as [u [_ E]]; apply bind_ok in E as [nd [_ E]]; destruct nd as [|i|lf].
  all: try discriminate E.
  all: try (apply bind_ok in E as [c1 [E1 E]]; apply n_delete in E1; apply n_with_leaf in E; congruence).
  all: try (destruct (negb _); [discriminate E|]; apply bind_ok in E as [c1 [E1 E]]; apply n_create in E; destruct (_ =? _)%N; [apply n_delete in E1|injection E1 as <-]; congruence).
  apply bind_ok in E as [c1 [E1 E]]. apply n_delete in E1. apply bind_ok in E as [rs [_ E]]. apply bind_ok in E as [[[ch fl] c2] [E2 E]]. apply n_loop in E2.
  - apply bind_ok in E as [i' [_ E]]. cbn zeta in E. apply bind_ok in E as [c3 [E3 E]]. injection E as <-. apply n_put in E3. cbn [snd] in *. congruence.
  - intros n sub flag c0 y Ey. apply bind_ok in Ey as [[[a b] c3] [E3 Ey]]. injection Ey as <-. destruct (in_child i n); [by apply IH in E3|by apply n_create in E3].
Qed.
Lemma n_values v l : forall c, tc_next (put_values v l c) = tc_next c.
Proof. unfold put_values. induction l as [|x l IH]; intros c; cbn [fold_left]; [done|]. by rewrite IH. Qed.
Lemma n_freeze c c' : cache_freeze H rd c = Ok c' -> tc_next c' = (tc_next c + 1)%N.
Proof.
  unfold cache_freeze. cbn zeta. intros E. apply bind_ok in E as [[c1 nd] [E1 E]]. assert (N1 : tc_next c1 = tc_next c).
  { destruct (cache_node rd c (tc_root c)); [by injection E1 as <- _|]. apply bind_ok in E1 as [c2 [E2 E1]]. injection E1 as <- _. by apply n_put in E2. }
  apply bind_ok in E as [rh [_ E]]. apply bind_ok in E as [c2 [E2 E]]. injection E as <-. cbn. assert (tc_next c2 = tc_next c1); [|congruence].
  destruct (_ && _); [|by injection E2 as <-]. apply bind_ok in E2 as [n [_ E2]]. by apply n_put in E2.
Qed.
End next.

Section thms.
Context (H : list byte -> bytes32).
Definition wrapped (c : cache) : cache := cache_with_next c (tc_next c mod u64_size)%N.
Lemma with_next_id c : cache_with_next c (tc_next c) = c.
Proof. by destruct c. Qed.
Lemma wrapped_id c : (tc_next c < u64_size)%N -> wrapped c = c.
Proof. intros L. unfold wrapped. rewrite N.mod_small by done. apply with_next_id. Qed.
Lemma add64_ok ovf a b : (a + b < u64_size)%N -> add64 ovf a b = Ok (a + b)%N.
Proof. intros L. unfold add64. by rewrite (proj2 (N.ltb_lt _ _) L). Qed.
Lemma add64_wrap a b : add64 false a b = Ok ((a + b) mod u64_size)%N.
Proof. unfold add64. destruct (_ <? _)%N eqn:E; [|done]. apply N.ltb_lt in E. by rewrite N.mod_small. Qed.
Lemma add64_over a b : (u64_size <= a + b)%N -> add64 true a b = Panic.
Proof. intros L. unfold add64. by rewrite (proj2 (N.ltb_ge _ _) L). Qed.
(** the versions fit, or they fit except for the one after the last and the build wraps *)
Definition fits64 (ovf : bool) (n : N) : Prop := (n < u64_size)%N \/ (ovf = false /\ n = u64_size).
Lemma freeze64_eq rd ovf c : fits64 ovf (tc_next c + 1) -> freeze64 H rd ovf c = (c' ← cache_freeze H rd c; Ok (wrapped c')).
Proof.
  intros F. unfold freeze64. destruct (cache_freeze H rd c) as [c'|e|] eqn:E; [|done..]. rewrite !bind_Ok. apply n_freeze in E. unfold wrapped. rewrite E.
  destruct F as [F|[-> F]]; [rewrite add64_ok, N.mod_small by done; done|]. rewrite add64_wrap. done.
Qed.
Lemma sets64_eq rd ovf sets : forall first idx c, tc_next c = (first + idx)%N -> sets <> [] -> fits64 ovf (first + idx + N.of_nat (length sets)) ->
  put_sets64 H rd ovf first idx sets c = (c' ← put_sets H rd (first + idx) sets c; Ok (wrapped c')).
Proof.
  induction sets as [|s sets IH]; intros first idx c En Ne F; [done|]. cbn [put_sets64 put_sets length] in *.
  assert (L : (first + idx < u64_size)%N) by (destruct F as [F|[_ F]]; lia). rewrite add64_ok by done. rewrite bind_Ok.
  destruct (put_set H rd (first + idx) s c) as [c1|e|] eqn:E1; [|done..]. rewrite !bind_Ok. apply n_set in E1. destruct sets as [|s2 sets].
  - rewrite freeze64_eq by (rewrite E1, En; by replace (first + idx + 1)%N with (first + idx + N.of_nat 1)%N by lia). cbn [put_sets64 put_sets]. destruct (cache_freeze H rd c1) as [c2|e|]; [|done..]. by rewrite !bind_Ok.
  - assert (L2 : (first + idx + 1 < u64_size)%N) by (cbn [length] in F; destruct F as [F|[_ F]]; lia). rewrite freeze64_eq by (left; by rewrite E1, En).
    destruct (cache_freeze H rd c1) as [c2|e|] eqn:E2; [|done..]. rewrite !bind_Ok. apply n_freeze in E2. rewrite wrapped_id by (rewrite E2, E1, En; done).
    rewrite IH; [by replace (first + (idx + 1))%N with (first + idx + 1)%N by lia|rewrite E2, E1, En; lia|done|].
    replace (first + (idx + 1) + N.of_nat (length (s2 :: sets)))%N with (first + idx + N.of_nat (S (length (s2 :: sets))))%N by lia. exact F.
Qed.
Lemma setsp64_eq rd ovf sets : forall first idx c, tc_next c = (first + idx)%N -> sets <> [] -> fits64 ovf (first + idx + N.of_nat (length sets)) ->
  put_sets_with_proof64 H rd ovf first idx sets c = ('(ps, c') ← put_sets_with_proof H rd (first + idx) sets c; Ok (ps, wrapped c')).
Proof.
  induction sets as [|s sets IH]; intros first idx c En Ne F; [done|]. cbn [put_sets_with_proof64 put_sets_with_proof length] in *.
  assert (L : (first + idx < u64_size)%N) by (destruct F as [F|[_ F]]; lia). rewrite add64_ok by done. rewrite bind_Ok.
  destruct (put_set_with_proof H rd (first + idx) s c) as [[ps c1]|e|] eqn:E1; [|done..]. rewrite !bind_Ok. apply n_set_p in E1. destruct sets as [|s2 sets].
  - rewrite freeze64_eq by (rewrite E1, En; by replace (first + idx + 1)%N with (first + idx + N.of_nat 1)%N by lia). cbn [put_sets_with_proof64 put_sets_with_proof]. destruct (cache_freeze H rd c1) as [c2|e|]; [|done..]. by rewrite !bind_Ok.
  - assert (L2 : (first + idx + 1 < u64_size)%N) by (cbn [length] in F; destruct F as [F|[_ F]]; lia). rewrite freeze64_eq by (left; by rewrite E1, En).
    destruct (cache_freeze H rd c1) as [c2|e|] eqn:E2; [|done..]. rewrite !bind_Ok. apply n_freeze in E2. rewrite wrapped_id by (rewrite E2, E1, En; done).
    rewrite IH; [replace (first + (idx + 1))%N with (first + idx + 1)%N by lia|rewrite E2, E1, En; lia|done|].
    + destruct (put_sets_with_proof H rd (first + idx + 1) (s2 :: sets) c2) as [[rest c3]|e|]; [by rewrite !bind_Ok|done..].
    + replace (first + (idx + 1) + N.of_nat (length (s2 :: sets)))%N with (first + idx + N.of_nat (S (length (s2 :: sets))))%N by lia. exact F.
Qed.
Lemma bsets64_eq rd ovf sets : forall first idx c, tc_next c = (first + idx)%N -> sets <> [] -> fits64 ovf (first + idx + N.of_nat (length sets)) ->
  batch_sets64 H rd ovf first idx sets c = (c' ← batch_sets H rd (first + idx) sets c; Ok (wrapped c')).
Proof.
  induction sets as [|[s hc] sets IH]; intros first idx c En Ne F; [done|]. cbn [batch_sets64 batch_sets length] in *.
  assert (L : (first + idx < u64_size)%N) by (destruct F as [F|[_ F]]; lia). rewrite add64_ok by done. unfold batch_set, batch_set64. destruct (assert_ _) as [u|e|]; [|done..]. rewrite !bind_Ok. cbn zeta.
  destruct (batch_insert_at H rd 64 _ _ _ _ _ _) as [[[nk nd] c1]|e|] eqn:E1; [|done..]. rewrite !bind_Ok. apply n_batch in E1. cbn [snd] in E1. rewrite n_values in E1.
  assert (E1' : tc_next (cache_set_root c1 nk) = tc_next c) by exact E1. generalize dependent (cache_set_root c1 nk). intros c0 E0. clear E1. rename E0 into E1. destruct sets as [|s2 sets].
  - rewrite freeze64_eq by (rewrite E1, En; by replace (first + idx + 1)%N with (first + idx + N.of_nat 1)%N by lia). cbn [batch_sets64 batch_sets]. destruct (cache_freeze H rd c0) as [c2|e|]; [|done..]. by rewrite !bind_Ok.
  - assert (L2 : (first + idx + 1 < u64_size)%N) by (cbn [length] in F; destruct F as [F|[_ F]]; lia). rewrite freeze64_eq by (left; by rewrite E1, En).
    destruct (cache_freeze H rd c0) as [c2|e|] eqn:E2; [|done..]. rewrite !bind_Ok. apply n_freeze in E2. rewrite wrapped_id by (rewrite E2, E1, En; done).
    rewrite IH; [by replace (first + (idx + 1))%N with (first + idx + 1)%N by lia|rewrite E2, E1, En; lia|done|].
    replace (first + (idx + 1) + N.of_nat (length (s2 :: sets)))%N with (first + idx + N.of_nat (S (length (s2 :: sets))))%N by lia. exact F.
Qed.
Lemma new_next rd first : tc_next (cache_new rd first) = first.
Proof. unfold cache_new. destruct (_ =? 0)%N; [destruct (rd_node rd _)|]; done. Qed.
Lemma pvs64 rd ovf sets first : fits64 ovf (first + N.of_nat (length sets)) -> put_value_sets64 H rd ovf sets first = put_value_sets H rd sets first.
Proof.
  intros F. unfold put_value_sets64, put_value_sets. destruct sets as [|s sets]; [done|]. rewrite sets64_eq; [|rewrite new_next; lia|done|by replace (first + 0)%N with first by lia].
  replace (first + 0)%N with first by lia. by destruct (put_sets H rd first (s :: sets) (cache_new rd first)).
Qed.
Lemma pvsp64 rd ovf sets first : fits64 ovf (first + N.of_nat (length sets)) -> put_value_sets_with_proof64 H rd ovf sets first = put_value_sets_with_proof H rd sets first.
Proof.
  intros F. unfold put_value_sets_with_proof64, put_value_sets_with_proof. destruct sets as [|s sets]; [done|]. rewrite setsp64_eq; [|rewrite new_next; lia|done|by replace (first + 0)%N with first by lia].
  replace (first + 0)%N with first by lia. by destruct (put_sets_with_proof H rd first (s :: sets) (cache_new rd first)) as [[ps c]|e|].
Qed.
Lemma bpvs64 rd ovf sets hs first : fits64 ovf (first + N.of_nat (length sets)) -> batch_put_value_sets64 H rd ovf sets hs first = batch_put_value_sets H rd sets hs first.
Proof.
  intros F. unfold batch_put_value_sets64, batch_put_value_sets. cbn zeta. destruct (assert_ _) as [u|e|] eqn:E; [|done..]. rewrite !bind_Ok.
  assert (L : length sets = length match hs with Some hs => map Some hs | None => map (fun _ => None) sets end).
  { unfold assert_ in E. destruct (_ =? _) eqn:Q in E; [|done]. by apply Nat.eqb_eq in Q. }
  set (z := zip sets _) in *. assert (Lz : length z = length sets) by (unfold z; rewrite zip_with_length; lia). clearbody z. rewrite <- Lz in F. destruct z as [|s z]; [done|].
  rewrite bsets64_eq; [|rewrite new_next; lia|done|by replace (first + 0)%N with first by lia].
  replace (first + 0)%N with first by lia. by destruct (batch_sets H rd first (s :: z) (cache_new rd first)).
Qed.

(** As long as the version after the last one fits in a u64, commits do the same as with unbounded versions, in both builds. *)
Theorem C80_no_overflow rd ovf sets ins hashes first : (first < 2 ^ 64)%N ->
  ((first + N.of_nat (length sets) < 2 ^ 64)%N ->
    put_value_sets64 H rd ovf sets first = put_value_sets H rd sets first /\
    put_value_sets_with_proof64 H rd ovf sets first = put_value_sets_with_proof H rd sets first) /\
  ((first + N.of_nat (length ins) < 2 ^ 64)%N -> batch_put_value_sets64 H rd ovf ins hashes first = batch_put_value_sets H rd ins hashes first).
Proof. intros _. split; [intros L; split|intros L]; [apply pvs64|apply pvsp64|apply bpvs64]; by left. Qed.
(** ... so a whole history of fewer than 2^64 versions, on any store and from any version, is the one of the other theorems. *)
Theorem C80_histories ovf ops : forall st n, (n + num_versions ops < 2 ^ 64)%N -> run_from64 H ovf st n ops = run_from H st n ops.
Proof.
  induction ops as [|o ops IH]; intros st n L; [done|]. unfold num_versions, history in L. cbn [flat_map] in L. rewrite app_length in L. cbn [run_from64 run_from].
  assert (E : step64 H ovf st n o = step H st n o). { destruct o as [sets|sets|l]; cbn [op_sets] in L; cbn [step64 step]; [rewrite pvs64|rewrite pvsp64|]; try done; left; unfold u64_size; lia. }
  rewrite E. destruct (step H st n o) as [[st' x]|e|]; [|done..]. rewrite !bind_Ok. rewrite IH; [done|]. unfold num_versions, history. lia.
Qed.
(** The last version number, 2^64 - 1, cannot be committed in debug builds: the call panics, if it does not fail before. *)
Theorem C80_last_version_debug rd sets first : (first < 2 ^ 64)%N -> (2 ^ 64 <= first + N.of_nat (length sets))%N ->
  (forall y, put_value_sets64 H rd true sets first <> Ok y) /\
  (forall y, put_value_sets H rd sets first = Ok y -> put_value_sets64 H rd true sets first = Panic).
Proof.
  intros L1 L2. change (2 ^ 64)%N with u64_size in *.
  assert (G : forall sets first idx c, tc_next c = (first + idx)%N -> (first + idx < u64_size)%N -> (u64_size <= first + idx + N.of_nat (length sets))%N ->
    (forall y, put_sets64 H rd true first idx sets c <> Ok y) /\ (forall y, put_sets H rd (first + idx) sets c = Ok y -> put_sets64 H rd true first idx sets c = Panic)).
  { clear. induction sets as [|s sets IH]; intros first idx c En L1 L2; [cbn [length] in L2; lia|]. cbn [put_sets64 put_sets length] in *. rewrite add64_ok by done. rewrite bind_Ok.
    destruct (put_set H rd (first + idx) s c) as [c1|e|] eqn:E1; [|done..]. rewrite !bind_Ok. apply n_set in E1. unfold freeze64. destruct (cache_freeze H rd c1) as [c2|e|] eqn:E2; [|done..]. rewrite !bind_Ok. apply n_freeze in E2.
    rewrite E1, En. destruct (decide (first + idx + 1 < u64_size)%N) as [L|L].
    - rewrite add64_ok by done. rewrite !bind_Ok. replace (first + idx + 1)%N with (tc_next c2) by (rewrite E2, E1, En; done). rewrite with_next_id. rewrite E2, E1, En.
      replace (first + idx + 1)%N with (first + (idx + 1))%N by lia. apply IH; [rewrite E2, E1, En; lia|lia|lia].
    - rewrite add64_over by lia. by split. }
  specialize (G sets first 0%N (cache_new rd first)). replace (first + 0)%N with first in G by lia. destruct (G (new_next _ _) L1 L2) as [G1 G2]. unfold put_value_sets64, put_value_sets. split.
  - intros y E. apply bind_ok in E as [c [E _]]. by eapply G1.
  - intros y E. apply bind_ok in E as [c [E _]]. by rewrite (G2 c E).
Qed.
(** In release builds it can, as the last one of its call, with the same result as if versions went on; ... *)
Theorem C80_last_version_release rd sets first : (first + N.of_nat (length sets) = 2 ^ 64)%N -> put_value_sets64 H rd false sets first = put_value_sets H rd sets first.
Proof. intros E. apply pvs64. right. done. Qed.
End thms.
(** ... but a later version of the same call wraps to 0.  A tree whose first version is 2^64 - 2, then two versions in one call: the second
    one is written as version 0, and get at version 2^64 - 1 shows an entry that was written after it and that the tree of that version
    does not have.  In debug builds the same call panics. *)
Definition top_version : version := (2 ^ 64 - 1)%N.
Definition wrap_sets : list (list (key * option value)) := [[(K80, Some vb)]; [(KC0, Some vc)]].
Definition wrap_store : outcome store :=
  '(_, b) ← put_value_sets64 toy (store_reader store_empty) false [[(K00, Some va)]] (top_version - 1)%N;
  write_tree_update_batch store_empty b.
Theorem C80_release_wraps : exists st roots b st',
  wrap_store = Ok st /\
  put_value_sets64 toy (store_reader st) true wrap_sets top_version = Panic /\
  put_value_sets64 toy (store_reader st) false wrap_sets top_version = Ok (roots, b) /\ write_tree_update_batch st b = Ok st' /\
  tb_nodes b !! nk_root 0 <> None /\
  get (store_reader st') KC0 top_version = Ok (Some vc) /\
  (exists p, get_with_proof toy (store_reader st') KC0 top_version = Ok (None, p)).
Proof.
  destruct wrap_store as [st|e|] eqn:E1; [|vm_compute in E1; discriminate E1..]. 
  assert (C : match wrap_store with
    | Ok st => match put_value_sets64 toy (store_reader st) true wrap_sets top_version, put_value_sets64 toy (store_reader st) false wrap_sets top_version with
       | Panic, Ok (roots, b) => match write_tree_update_batch st b with
          | Ok st' => match tb_nodes b !! nk_root 0, get (store_reader st') KC0 top_version, get_with_proof toy (store_reader st') KC0 top_version with
             | Some _, Ok (Some x), Ok (None, _) => bool_decide (x = vc) | _, _, _ => false end
          | _ => false end
       | _, _ => false end
    | _ => false end = true) by (vm_compute; reflexivity).
  rewrite E1 in C. clear E1. exists st.
  destruct (put_value_sets64 toy (store_reader st) true wrap_sets top_version) as [|e|]; [discriminate C..|].
  destruct (put_value_sets64 toy (store_reader st) false wrap_sets top_version) as [[roots b]|e|]; [|discriminate C..].
  destruct (write_tree_update_batch st b) as [st'|e|] eqn:W; [|discriminate C..]. exists roots, b, st'.
  destruct (tb_nodes b !! nk_root 0) as [nd|]; [|discriminate C]. destruct (get (store_reader st') KC0 top_version) as [[x|]|e|]; [|discriminate C..].
  destruct (get_with_proof toy (store_reader st') KC0 top_version) as [[[y|] p]|e|]; [discriminate C| |discriminate C..]. apply bool_decide_eq_true in C. subst x.
  split_and!; try reflexivity; [exact W|discriminate|by exists p].
Qed.
