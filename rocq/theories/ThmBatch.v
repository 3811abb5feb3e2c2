(** C19: batch_put_value_sets returns exactly what put_value_sets returns. *)
From Verif Require Import Base Spec SpecOrder NodeType ProofDef TreeCache Tree Mock Driver NibbleRange BatchTree KeyFacts SmtFacts ProofFacts NodeFacts Canon CanonSib ReadFacts PutFacts InsertFacts InsertInt InsertInt2 PutTop VersionFacts KeyOrder ValueFacts StoreFacts DriverFacts OrderFacts BatchFacts BatchLeaf BatchInsert BatchTop ThmProof Demo Toy.
From Coq Require Import Lia.
Local Opaque Spec.smt.

Section lem.
Context (H : list byte -> bytes32).
(** the given hashes agree with the nodes written at a version *)
Definition agrees (x : vstate) (hc : option (gmap (list nibble) bytes32)) : Prop :=
  match hc with
  | None => True
  | Some t => forall q nd h, q <> [] -> nodes_of H x (vs_v x, q) nd -> node_hash H nd = Ok h -> t !! q = Some h
  end.
Lemma agrees_good x s hc a0 : vs_a x = aset H (vs_v x) a0 (ins s) -> s <> [] -> agrees x hc -> hc_good H hc [] (mset H (a_map a0) (ins s)) (H <$> smap s).
Proof.
  intros Ea Ns. destruct hc as [t|]; [|done]. intros G q _ Nq Nk Hm. destruct (aset_ins H (vs_v x) s a0 Ns) as (A1 & A2 & A3).
  assert (Em : mset H (a_map a0) (ins s) = a_map (vs_a x)) by (by rewrite Ea, aset_map). rewrite Em in *.
  apply (G q (node_at H (a_map (vs_a x)) (a_ver (vs_a x)) q)); [done| |apply node_hash_canon].
  split; [done|]. split; [done|]. right. cbn [snd]. split; [|rewrite Ea, A3; by apply updK_in]. split; [apply prefix_nil|]. split; [|by right].
  rewrite Ea, A2. by apply U_union_ne.
Qed.
Lemma batch_sets_next rd sets : forall v b c hcs, BInv H rd v b c -> Ready v b c -> length hcs = length sets -> Forall (fun s => s <> []) sets ->
  Forall2 agrees (trace H v b (map ins sets)) hcs ->
  batch_sets H rd v (zip sets hcs) c = put_sets H rd v (map ins sets) c.
Proof.
  induction sets as [|s sets IH]; intros v b c hcs B R L F A; [done|]. destruct hcs as [|hc hcs]; [done|].
  cbn [map VersionFacts.trace] in A. apply Forall2_cons in A as [A1 A2]. apply Forall_cons in F as [F1 F2].
  destruct (version_next H rd v b c (ins s) B R) as (_ & _ & c1 & c2 & P1 & _ & P3 & _ & P5 & _ & P7).
  change (zip (s :: sets) (hc :: hcs)) with ((s, hc) :: zip sets hcs). cbn [batch_sets map put_sets].
  rewrite (batch_set_same H rd v _ _ _ _ c s hc (binv_base H rd v b c B) (ready_vinv H rd v b c R) F1).
  - rewrite P1, !bind_Ok, P3, !bind_Ok. apply (IH _ _ _ _ P7 P5); [cbn in L; lia|done|done].
  - intros E. cbn [a_map] in E. destruct R as (Rc & Rr & _). rewrite Rr. destruct Rc as (Rn & _). rewrite cache_node_out by (by rewrite Rn, lookup_empty).
    destruct B as (_ & _ & _ & _ & B). rewrite B. f_equal. apply node_at_null. by rewrite E, U_nil.
  - by apply (agrees_good (vnext H v b (ins s)) s hc).
Qed.
Lemma batch_sets_first rd sets hcs : (forall nk, rd_node rd nk = None) -> length hcs = length sets -> Forall (fun s => s <> []) sets ->
  Forall2 agrees (trace0 H (map ins sets)) hcs ->
  batch_sets H rd 0 (zip sets hcs) (cache_new rd 0) = put_sets H rd 0 (map ins sets) (cache_new rd 0).
Proof.
  intros Hrd L F A. destruct sets as [|s sets]; [done|]. destruct hcs as [|hc hcs]; [done|].
  cbn [map trace0] in A. apply Forall2_cons in A as [A1 A2]. apply Forall_cons in F as [F1 F2].
  assert (Ec2 : cache_new rd 0 = mkCache (nk_root 0) 0 {[ nk_root 0 := Null ]} ∅ 0 ∅ 0 ∅ ∅ ∅ [] []).
  { unfold cache_new. cbn [N.eqb]. by rewrite Hrd. }
  destruct (version_first H rd (cache_new rd 0) (ins s) Hrd eq_refl) as (_ & _ & c1 & c2 & P1 & _ & P3 & _ & P5 & _ & P7).
  change (zip (s :: sets) (hc :: hcs)) with ((s, hc) :: zip sets hcs). cbn [batch_sets map put_sets].
  assert (Eb : forall nk, base rd (cache_new rd 0) nk = None) by (intros nk; unfold base; rewrite Ec2; cbn; by rewrite lookup_empty, Hrd).
  assert (NL : forall q, ~ lv [] q ∅) by (intros q Lq; by apply lv_nil_M in Lq).
  rewrite (batch_set_same H rd 0 ∅ (fun _ => 0%N) 1 (ATree ∅ (fun _ => 0%N) true) (cache_new rd 0) s hc).
  - rewrite P1, !bind_Ok, P3, !bind_Ok. apply (batch_sets_next rd sets _ _ _ _ P7 P5); [cbn in L; lia|done|done].
  - split_and!; [done| |done|done|by right]. intros q Lq. by apply NL in Lq.
  - rewrite Ec2. split_and!.
    + split; [cbn [tc_new_leaves tc_nodes]; rewrite map_filter_singleton_False by done; by rewrite map_size_empty|].
      cbn [tc_stale tc_stale_leaves]. 
      match goal with |- _ = size ?X => assert (X = ∅) as -> by set_solver end. by rewrite size_empty.
    + done.
    + cbn. split; [done|]. right. split; [done|]. split; [by right|]. intros [w q].
      rewrite T0_is. split; [by intros ?%elem_of_empty|]. intros [Lq _]. by apply NL in Lq.
  - done.
  - intros _. rewrite Ec2. apply cache_node_in. apply lookup_singleton.
  - by apply (agrees_good (vfirst H (ins s)) s hc (ATree ∅ (fun _ => 0%N) true)).
Qed.
Lemma batch_sets_run st tr b hist f sets hcs : SInv H st tr b hist f -> length hcs = length sets -> Forall (fun s => s <> []) sets ->
  Forall2 agrees (trn H tr b (map ins sets)) hcs ->
  let n := N.of_nat (length hist) in let rd := store_reader st in
  batch_sets H rd n (zip sets hcs) (cache_new rd n) = put_sets H rd n (map ins sets) (cache_new rd n).
Proof.
  intros S L F A n rd. pose proof (si_len _ _ _ _ _ _ S) as Len. unfold trn in A. destruct (decide (tr = [])) as [Et|Et].
  - assert (n = 0%N) as -> by (unfold n; rewrite <- Len, Et; done). apply batch_sets_first; [|done|done|done].
    intros nk. cbn. destruct (st_nodes st !! nk) as [nd|] eqn:E; [|done]. apply (si_nodes _ _ _ _ _ _ S) in E as [(x & Hx & _) _].
    rewrite Et in Hx. by apply elem_of_nil in Hx.
  - destruct (si_binv H st tr b hist f S Et) as (B & R & _). rewrite Len in *. fold n in B, R, A. by eapply batch_sets_next.
Qed.
End lem.

Section thm.
Context (H : list byte -> bytes32).
(** the value sets as value sets of put_value_sets: every pair is an insertion *)
Definition insertions (sets : list (list (key * value))) : list (list (key * option value)) :=
  map (map (fun kx => (kx.1, Some kx.2))) sets.

Theorem C19_batch_equals_put (ops : list op) st xs (sets : list (list (key * value))) : run H ops = Ok (st, xs) ->
  Forall (fun s => s <> []) sets ->
  batch_put_value_sets H (store_reader st) sets None (num_versions ops) =
  put_value_sets H (store_reader st) (insertions sets) (num_versions ops).
Proof.
  intros R F. apply run_inv in R as [_ S]. unfold batch_put_value_sets. rewrite map_length, Nat.eqb_refl. cbn [assert_]. rewrite bind_Ok.
  pose proof (batch_sets_run H _ _ _ _ _ sets (map (fun _ => None) sets) S) as E. cbv zeta in E. unfold num_versions. rewrite E; [done|by rewrite map_length|done|].
  clear E. match goal with |- Forall2 _ ?l _ => assert (L : length l = length sets) by (by rewrite trn_length, map_length); revert L; generalize l end.
  clear. induction sets as [|s sets IH]; intros [|x l] L; try done; cbn [map]; constructor; [done|]. apply IH. cbn in L. lia.
Qed.

(** With given node hashes: if they agree with the nodes that put_value_sets writes at each version (except the
    root, whose hash is never looked up), the result is the same. *)
Theorem C19_with_node_hashes (ops : list op) (st : store) (xs : list out) (sets : list (list (key * value))) (hs : list (gmap (list nibble) bytes32)) (roots : list hash) (b : tree_batch) :
  run H ops = Ok (st, xs) -> Forall (fun s => s <> []) sets -> length hs = length sets ->
  put_value_sets H (store_reader st) (insertions sets) (num_versions ops) = Ok (roots, b) ->
  (forall i t q nd h, hs !! i = Some t -> q <> [] -> tb_nodes b !! ((num_versions ops + N.of_nat i)%N, q) = Some nd -> node_hash H nd = Ok h -> t !! q = Some h) ->
  batch_put_value_sets H (store_reader st) sets (Some hs) (num_versions ops) = Ok (roots, b).
Proof.
  intros R F L P G. apply run_inv in R as [_ S]. destruct (commit_batch H _ _ _ _ _ (map ins sets) S) as (_ & b' & _ & P1 & _ & BO & _).
  change (map ins sets) with (insertions sets) in P1. unfold num_versions in *. rewrite P1 in P. apply Ok_inj in P. injection P as <- ->. rewrite <- P1.
  unfold batch_put_value_sets. rewrite map_length, L, Nat.eqb_refl. cbn [assert_]. rewrite bind_Ok.
  pose proof (batch_sets_run H _ _ _ _ _ sets (map Some hs) S) as E. cbv zeta in E. rewrite E; [done|by rewrite map_length|done|].
  apply Forall2_same_length_lookup_2; [by rewrite trn_length, !map_length|]. intros i x hc Ex Eh. apply list_lookup_fmap_Some in Eh as (t & Et & ->).
  intros q nd h Nq N Hh. pose proof (trn_maps H _ _ _ _ _ _ S i x Ex) as [Ev _]. apply (G i t q nd h Et Nq); [|done].
  apply (bo_nodes _ _ _ _ _ BO). exists x. split; [by eapply elem_of_list_lookup_2|]. replace (N.of_nat (length (history ops)) + N.of_nat i)%N with (vs_v x) by lia. done.
Qed.

(** An empty value set makes the call panic, wherever it stands. *)
Theorem C19_empty_set_panics (ops : list op) st xs (sets more : list (list (key * value))) : run H ops = Ok (st, xs) ->
  Forall (fun s => s <> []) sets ->
  batch_put_value_sets H (store_reader st) (sets ++ [] :: more) None (num_versions ops) = Panic.
Proof.
  intros R F. pose proof (C19_batch_equals_put ops st xs sets R F) as E. apply run_inv in R as [_ S].
  destruct (commit_batch H _ _ _ _ _ (map ins sets) S) as (_ & b' & _ & P1 & _).
  change (map ins sets) with (insertions sets) in P1. unfold num_versions in *. rewrite P1 in E. clear P1.
  unfold batch_put_value_sets in *. rewrite map_length, Nat.eqb_refl in *. cbn [assert_] in *. rewrite bind_Ok in *.
  rewrite map_app. cbn [map]. rewrite zip_with_app by (by rewrite map_length).
  revert E. match goal with |- _ = Ok ?r -> _ => generalize r end. intros r E. set (c0 := cache_new _ _) in *. clearbody c0. revert E. set (n := N.of_nat _). clearbody n. revert n c0. clear F S. induction sets as [|s sets IH]; intros n c0; [done|].
  change (zip (s :: sets) (map (fun _ => None) (s :: sets))) with ((s, None : option (gmap (list nibble) bytes32)) :: zip sets (map (fun _ => None) sets)).
  cbn [batch_sets app]. destruct (batch_set H (store_reader st) n s None c0) as [c1| |]; [rewrite !bind_Ok; apply IH|done|done].
Qed.
End thm.

(** *** concrete runs *)
Definition batch_roots (ops : list op) (sets : list (list (key * value))) (hs : option (list (gmap (list nibble) bytes32))) : option (list hash * nat * nat) :=
  match run toy ops with
  | Ok (st, _) => match batch_put_value_sets toy (store_reader st) sets hs (num_versions ops) with Ok (r, b) => Some (r, size (tb_nodes b), size (tb_stale b)) | _ => None end
  | _ => None
  end.
Definition put_roots (ops : list op) (sets : list (list (key * value))) : option (list hash * nat * nat) :=
  match run toy ops with
  | Ok (st, _) => match put_value_sets toy (store_reader st) (insertions sets) (num_versions ops) with Ok (r, b) => Some (r, size (tb_nodes b), size (tb_stale b)) | _ => None end
  | _ => None
  end.
Definition demo_sets : list (list (key * value)) := [ [(K80, vb); (K00, va); (K00, vb)]; [(KC0, vc); (K80, va)] ].
(** a repeated key, two versions, an existing leaf that is pushed down *)
Example demo_batch : bool_decide (batch_roots [] demo_sets None = put_roots [] demo_sets) && bool_decide (is_Some (batch_roots [] demo_sets None)) &&
  bool_decide (batch_roots [Commit [[(KC0, Some va)]]] demo_sets None = put_roots [Commit [[(KC0, Some va)]]] demo_sets) = true.
Proof. vm_compute. reflexivity. Qed.
(** The given hashes are trusted: with a wrong one the call succeeds and returns a root that is not the root of the entries. *)
Definition wrong_hash : gmap (list nibble) bytes32 := {[ take 1 (key_nibbles K00) := K80; take 1 (key_nibbles K80) := KC0 ]}.
Theorem C53_given_hashes_unchecked : exists r n s,
  batch_roots [] [[(K00, va); (K80, vb)]] (Some [wrong_hash]) = Some ([r], n, s) /\
  r <> smt_root toy {[ K00 := va; K80 := vb ]} /\
  put_roots [] [[(K00, va); (K80, vb)]] = Some ([smt_root toy {[ K00 := va; K80 := vb ]}], n, s).
Proof.
  set (x := batch_roots [] [[(K00, va); (K80, vb)]] (Some [wrong_hash])). set (y := put_roots [] [[(K00, va); (K80, vb)]]).
  assert (E : match x, y with
              | Some ([r], n, s), Some ([r'], n', s') => negb (bool_decide (r = smt_root toy {[ K00 := va; K80 := vb ]})) &&
                  bool_decide (r' = smt_root toy {[ K00 := va; K80 := vb ]}) && bool_decide (n = n') && bool_decide (s = s')
              | _, _ => false
              end = true) by (vm_compute; reflexivity).
  clearbody x y. destruct x as [[[[|r [|? ?]] n] s]|]; try done. destruct y as [[[[|r' [|? ?]] n'] s']|]; try done.
  rewrite !andb_true_iff, negb_true_iff in E. destruct E as (((E1 & E2) & E3) & E4).
  apply bool_decide_eq_false in E1. apply bool_decide_eq_true in E2, E3, E4. subst n' s'. exists r, n, s. split; [reflexivity|]. split; [exact E1|]. rewrite E2. reflexivity.
Qed.
(** A hash missing from the given table is not computed either, though the comment on [get_hash] says so: the call panics. *)
Theorem C53_missing_hash_panics : batch_put_value_sets toy (store_reader store_empty) [[(K00, va); (K80, vb)]] (Some [ {[ take 1 (key_nibbles K00) := K80 ]} ]) 0 = Panic /\
  exists r b, batch_put_value_sets toy (store_reader store_empty) [[(K00, va); (K80, vb)]] None 0 = Ok (r, b).
Proof.
  split; [vm_compute; reflexivity|].
  assert (E : match batch_put_value_sets toy (store_reader store_empty) [[(K00, va); (K80, vb)]] None 0 with Ok _ => true | _ => false end = true) by (vm_compute; reflexivity).
  destruct (batch_put_value_sets toy _ _ None 0) as [[r b]| |]; [by exists r, b|discriminate E|discriminate E].
Qed.
