(** Runs of the driver keep the store invariant. *)
From Verif Require Import Base Spec NodeType ProofDef TreeCache Tree Mock Driver KeyFacts SmtFacts ProofFacts NodeFacts Canon CanonSib ReadFacts PutFacts InsertFacts InsertInt InsertInt2 PutTop VersionFacts KeyOrder ValueFacts StoreFacts.
From Coq Require Import Lia.
Local Opaque Spec.smt.

Section df.
Context (H : list byte -> bytes32).
Notation SInv := (SInv H).
Notation trn := (trn H).
Definition xop (tb : list vstate * btree) (o : op) : list vstate * btree :=
  match o with Purge _ => tb | _ => (tb.1 ++ trn tb.1 tb.2 (op_sets o), last_bt tb.2 (trn tb.1 tb.2 (op_sets o))) end.
Definition xrun (tb : list vstate * btree) (ops : list op) := fold_left xop ops tb.

Definition rootl (tr : list vstate) : list hash := map (fun x => ms H [] (a_map (vs_a x))) tr.
Definition out_ok (tb : list vstate * btree) (hist : list wset) (o : op) (x : out) : Prop :=
  let n := N.of_nat (length hist) in
  match o, x with
  | Commit sets, OutCommit roots b => roots = rootl (trn tb.1 tb.2 sets) /\ batch_ok H (trn tb.1 tb.2 sets) n sets b
  | CommitP sets, OutCommitP rp b => exists pfss, rp = zip (rootl (trn tb.1 tb.2 sets)) pfss /\
      pfss_ok H (bt_map tb.2) sets pfss /\ batch_ok H (trn tb.1 tb.2 sets) n sets b
  | Purge _, OutPurge => True
  | _, _ => False
  end.
Fixpoint outs_ok (tb : list vstate * btree) (hist : list wset) (ops : list op) (xs : list out) : Prop :=
  match ops, xs with
  | [], [] => True
  | o :: ops', x :: xs' => out_ok tb hist o x /\ outs_ok (xop tb o) (hist ++ op_sets o) ops' xs'
  | _, _ => False
  end.

Lemma step_okB B st tb hist f o : SInvB H B st tb.1 tb.2 hist f ->
  exists st' x, step H st (N.of_nat (length hist)) o = Ok (st', x) /\ out_ok tb hist o x /\
    SInvB H B st' (xop tb o).1 (xop tb o).2 (hist ++ op_sets o) (floor_step (f, N.of_nat (length hist)) o).1.
Proof.
  intros S. destruct tb as [tr b]. cbn [fst snd] in S. destruct o as [sets|sets|l].
  - destruct (commit_batchB H B st tr b hist f sets S) as (T & bt & pfss & P1 & P2 & P3 & P4).
    destruct (commit_okB H B st tr b hist f sets bt S T P3) as (D & st' & W & S').
    exists st'. eexists. split; [cbn [step]; rewrite P1, bind_Ok, W, bind_Ok; reflexivity|]. split; [done|exact S'].
  - destruct (commit_batchB H B st tr b hist f sets S) as (T & bt & pfss & P1 & P2 & P3 & P4).
    destruct (commit_okB H B st tr b hist f sets bt S T P3) as (D & st' & W & S').
    exists st'. eexists. split; [cbn [step]; rewrite P2, bind_Ok, W, bind_Ok; reflexivity|]. split; [|exact S'].
    exists pfss. done.
  - destruct (purge_okB H B st tr b hist f l S) as (st' & P & S').
    exists st', OutPurge. split; [cbn [step]; by rewrite P, bind_Ok|]. split; [done|]. cbn [op_sets xop floor_step fst snd]. rewrite app_nil_r. exact S'.
Qed.
Lemma run_from_okB B ops : forall st tb hist f, SInvB H B st tb.1 tb.2 hist f ->
  exists st' xs, run_from H st (N.of_nat (length hist)) ops = Ok (st', xs) /\ outs_ok tb hist ops xs /\
    SInvB H B st' (xrun tb ops).1 (xrun tb ops).2 (hist ++ history ops) (fold_left floor_step ops (f, N.of_nat (length hist))).1.
Proof.
  induction ops as [|o ops IH]; intros st tb hist f S.
  - exists st, []. cbn. rewrite app_nil_r. done.
  - destruct (step_okB B st tb hist f o S) as (st1 & x & P1 & P2 & P3).
    destruct (IH st1 (xop tb o) (hist ++ op_sets o) _ P3) as (st2 & xs & Q1 & Q2 & Q3).
    exists st2, (x :: xs). split.
    + cbn [run_from]. rewrite P1, bind_Ok.
      replace (N.of_nat (length hist) + N.of_nat (length (op_sets o)))%N with (N.of_nat (length (hist ++ op_sets o))) by (rewrite app_length; lia).
      rewrite Q1, bind_Ok. done.
    + split; [done|]. cbn [history flat_map xrun fold_left]. rewrite app_assoc.
      replace (floor_step (f, N.of_nat (length hist)) o) with ((floor_step (f, N.of_nat (length hist)) o).1, N.of_nat (length (hist ++ op_sets o))); [exact Q3|].
      unfold floor_step. destruct o; cbn [fst snd op_sets]; rewrite ?app_nil_r; [f_equal; rewrite app_length; lia..|done].
Qed.
Lemma step_ok st tb hist f o : SInv st tb.1 tb.2 hist f ->
  exists st' x, step H st (N.of_nat (length hist)) o = Ok (st', x) /\ out_ok tb hist o x /\
    SInv st' (xop tb o).1 (xop tb o).2 (hist ++ op_sets o) (floor_step (f, N.of_nat (length hist)) o).1.
Proof. apply step_okB. Qed.
Lemma run_from_ok ops : forall st tb hist f, SInv st tb.1 tb.2 hist f ->
  exists st' xs, run_from H st (N.of_nat (length hist)) ops = Ok (st', xs) /\ outs_ok tb hist ops xs /\
    SInv st' (xrun tb ops).1 (xrun tb ops).2 (hist ++ history ops) (fold_left floor_step ops (f, N.of_nat (length hist))).1.
Proof. apply run_from_okB. Qed.
Definition tb0 : list vstate * btree := ([], b0).
Lemma run_ok ops : exists st xs, run H ops = Ok (st, xs) /\ outs_ok tb0 [] ops xs /\ SInv st (xrun tb0 ops).1 (xrun tb0 ops).2 (history ops) (floor ops).
Proof. apply (run_from_ok ops store_empty tb0 [] 0%N). apply si_empty. Qed.
Lemma run_inv ops st xs : run H ops = Ok (st, xs) -> outs_ok tb0 [] ops xs /\ SInv st (xrun tb0 ops).1 (xrun tb0 ops).2 (history ops) (floor ops).
Proof. intros R. destruct (run_ok ops) as (st' & xs' & R' & O & S). rewrite R in R'. by injection R' as <- <-. Qed.

Lemma run_from_app ops1 ops2 : forall st n, run_from H st n (ops1 ++ ops2) =
  ('(st1, xs1) ← run_from H st n ops1; '(st2, xs2) ← run_from H st1 (n + num_versions ops1)%N ops2; Ok (st2, xs1 ++ xs2)).
Proof.
  induction ops1 as [|o ops1 IH]; intros st n; cbn [app run_from].
  - rewrite bind_Ok. unfold num_versions. cbn. rewrite N.add_0_r. destruct (run_from H st n ops2) as [[? ?]| |]; done.
  - destruct (step H st n o) as [[st1 x]| |]; [|done..]. rewrite !bind_Ok. rewrite IH.
    destruct (run_from H st1 _ ops1) as [[st2 xs2]| |]; [|done..]. rewrite !bind_Ok.
    assert (E : (n + num_versions (o :: ops1))%N = (n + N.of_nat (length (op_sets o)) + num_versions ops1)%N).
    { unfold num_versions, history. cbn [flat_map]. rewrite app_length. lia. } rewrite E.
    destruct (run_from H st2 _ ops2) as [[st3 xs3]| |]; done.
Qed.
Lemma run_snoc ops o st xs st' x : run H ops = Ok (st, xs) -> step H st (num_versions ops) o = Ok (st', x) -> run H (ops ++ [o]) = Ok (st', xs ++ [x]).
Proof. intros R E. unfold run in *. rewrite run_from_app, R, bind_Ok. cbn [run_from]. rewrite N.add_0_l, E, !bind_Ok. done. Qed.

(** reads at a readable version *)
Lemma read_okB B st tr b hist f v : SInvB H B st tr b hist f -> (f <= v)%N -> (v < N.of_nat (length hist))%N ->
  exists x, tr !! N.to_nat v = Some x /\ vs_v x = v /\ a_map (vs_a x) = H <$> contents_at hist v /\
    stored H (store_reader st) (H <$> contents_at hist v) (a_ver (vs_a x)) v.
Proof.
  intros S L1 L2. pose proof (sb_len _ _ _ _ _ _ _ S) as Len. pose proof (sb_trok _ _ _ _ _ _ _ S) as T.
  destruct (lookup_lt_is_Some_2 tr (N.to_nat v)) as [x E]; [lia|]. exists x.
  assert (Vx : vs_v x = v) by (destruct T as (T1 & _); rewrite (T1 _ _ E); lia).
  assert (Mx : a_map (vs_a x) = H <$> contents_at hist v) by (rewrite (sb_map _ _ _ _ _ _ _ S _ _ E), N2Nat.id; done).
  split; [done|]. split; [done|]. split; [done|]. rewrite <- Mx, <- Vx. eapply sb_stored; [done|by eapply elem_of_list_lookup_2|lia].
Qed.
Lemma value_okB B st tr b hist f v k : SInvB H B st tr b hist f -> rd_value (store_reader st) v k = contents_at hist v !! k.
Proof. intros S. cbn. by apply store_value_hist, (sb_hist _ _ _ _ _ _ _ S). Qed.
Lemma read_ok st tr b hist f v : SInv st tr b hist f -> (f <= v)%N -> (v < N.of_nat (length hist))%N ->
  exists x, tr !! N.to_nat v = Some x /\ vs_v x = v /\ a_map (vs_a x) = H <$> contents_at hist v /\
    stored H (store_reader st) (H <$> contents_at hist v) (a_ver (vs_a x)) v.
Proof. apply read_okB. Qed.
Lemma value_ok st tr b hist f v k : SInv st tr b hist f -> rd_value (store_reader st) v k = contents_at hist v !! k.
Proof. apply value_okB. Qed.
End df.

(** What the client learns about the roots: one per committed version. *)
Definition out_roots (x : out) : list hash :=
  match x with OutCommit r _ => r | OutCommitP rp _ => rp.*1 | OutPurge => [] end.
(** The update batch written by a step, if any. *)
Definition out_batch (x : out) : option tree_batch :=
  match x with OutCommit _ b => Some b | OutCommitP _ b => Some b | OutPurge => None end.

Section df2.
Context (H : list byte -> bytes32).
Notation SInv := (SInv H).
Notation trn := (trn H).
Notation rootl := (rootl H).
Notation out_ok := (out_ok H).
Notation outs_ok := (outs_ok H).
Notation xrun := (xrun H).
Notation xop := (xop H).
Lemma pfss_ok_length sets : forall M pfss, pfss_ok H M sets pfss -> length pfss = length sets.
Proof. induction sets as [|s sets IH]; intros M [|p pfss]; cbn; [done..|]. intros [_ E]. f_equal. by eapply IH. Qed.
Lemma rootl_app l1 l2 : rootl (l1 ++ l2) = rootl l1 ++ rootl l2.
Proof. apply map_app. Qed.
Lemma out_ok_roots tb hist o x : out_ok tb hist o x -> rootl tb.1 ++ out_roots x = rootl (xop tb o).1.
Proof.
  destruct o as [sets|sets|l], x as [r b|rp b|]; cbn [DriverFacts.out_ok DriverFacts.xop out_roots op_sets fst snd]; try done.
  - intros [-> _]. by rewrite rootl_app.
  - intros (pfss & -> & P & _). rewrite fst_zip; [by rewrite rootl_app|]. rewrite (pfss_ok_length _ _ _ P). unfold rootl. rewrite map_length, trn_length. lia.
  - intros _. by rewrite app_nil_r.
Qed.
Lemma outs_ok_roots ops : forall tb hist xs, outs_ok tb hist ops xs -> rootl tb.1 ++ flat_map out_roots xs = rootl (xrun tb ops).1.
Proof.
  induction ops as [|o ops IH]; intros tb hist [|x xs]; cbn [DriverFacts.outs_ok]; try done.
  - intros _. cbn. by rewrite app_nil_r.
  - intros [O R]. cbn [flat_map]. rewrite app_assoc, (out_ok_roots _ _ _ _ O). by apply (IH _ _ _ R).
Qed.
Lemma run_roots ops st xs : run H ops = Ok (st, xs) ->
  flat_map out_roots xs = map (fun i => smt_root H (contents_at (history ops) (N.of_nat i))) (seq 0 (length (history ops))).
Proof.
  intros R. apply run_inv in R as [O S]. apply outs_ok_roots in O. cbn in O. rewrite O.
  pose proof (si_len _ _ _ _ _ _ S) as Len.
  apply list_eq. intros i. unfold rootl. rewrite !list_lookup_fmap.
  destruct ((xrun tb0 ops).1 !! i) as [x|] eqn:E.
  - pose proof (lookup_lt_Some _ _ _ E). rewrite lookup_seq_lt by lia. cbn. rewrite (si_map _ _ _ _ _ _ S _ _ E), ms_nil. done.
  - apply lookup_ge_None in E. rewrite lookup_seq_ge by lia. done.
Qed.
(** the honest proof of a key *)
Lemma read_proof ops st xs v k : run H ops = Ok (st, xs) -> readable ops v -> let m := contents_at (history ops) v in
  exists n, term (H <$> m) k n /\ get_with_proof H (store_reader st) k v = Ok (m !! k, hproof H (H <$> m) k n).
Proof.
  intros R [L1 L2] m. apply run_inv in R as [_ S]. destruct (read_ok H _ _ _ _ _ v S L1 L2) as (x & _ & _ & _ & K).
  eapply get_with_proof_canon; [exact K|]. intros k'. by eapply value_ok.
Qed.
Lemma read_root ops st xs v : run H ops = Ok (st, xs) -> readable ops v -> 
  get_root_hash H (store_reader st) v = Ok (smt_root H (contents_at (history ops) v)) /\
  get_root_hash_option H (store_reader st) v = Ok (Some (smt_root H (contents_at (history ops) v))) /\
  get_leaf_count (store_reader st) v = Ok (size (contents_at (history ops) v)).
Proof.
  intros R [L1 L2]. apply run_inv in R as [_ S]. destruct (read_ok H _ _ _ _ _ v S L1 L2) as (x & _ & _ & _ & K).
  pose proof (get_root_hash_canon H _ _ _ _ K) as [E1 E2]. rewrite ms_nil in *. rewrite (get_leaf_count_canon H _ _ _ _ K), map_size_fmap. done.
Qed.
Lemma pfs_update ovf s : forall M pfs, pfs_ok H M s pfs -> update_loop H ovf (ms H [] M) pfs s = Ok (ms H [] (mset H M s)) /\ length s = length pfs.
Proof.
  induction s as [|[k v] s IH]; intros M [|p pfs]; cbn [pfs_ok]; try done. cbn [fst snd]. intros [Hp Hs].
  apply IH in Hs as [Hs L]. split; [|cbn; lia]. cbn [update_loop]. 
  assert (E : check_compute_new_root H ovf p (ms H [] M) k v = Ok (ms H [] (apply_vh M k (H <$> v)))).
  { case_decide as D.
    - subst p. destruct D as [D1 D2]. destruct v; [done|]. cbn. do 2 f_equal. cbn. by rewrite delete_notin.
    - destruct Hp as (n & T & ->). apply ccnr_honest; [done|]. intros ->. destruct (M !! k) eqn:E; [done|]. destruct D. done. }
  rewrite E, bind_Ok. exact Hs.
Qed.
Lemma pfss_update ovf sets : forall (m : gmap key value) pfss, pfss_ok H (H <$> m) sets pfss ->
  forall i s pfs, sets !! i = Some s -> pfss !! i = Some pfs ->
  verify_update H ovf pfs (smt_root H (apply_sets m (take i sets))) (smt_root H (apply_sets m (take (S i) sets))) s = Ok tt.
Proof.
  induction sets as [|s0 sets IH]; intros m [|p0 pfss]; cbn [pfss_ok]; try done. intros [P Ps] [|i] s pfs; cbn [lookup list_lookup].
  - intros [= <-] [= <-]. apply (pfs_update ovf) in P as [P L]. unfold verify_update. rewrite L, Nat.eqb_refl. cbn [ensure_]. rewrite bind_Ok.
    cbn [take apply_sets fold_left]. rewrite <- !ms_nil, P, bind_Ok, mset_fmap. by rewrite bool_decide_eq_true_2.
  - intros E1 E2. rewrite mset_fmap in Ps. apply (IH (apply_set m s0) pfss Ps i s pfs E1 E2).
Qed.
End df2.

Lemma floor_inv ops : forall fn : version * version, fn.1 = 0%N \/ (fn.1 < fn.2)%N -> let fn' := fold_left floor_step ops fn in
  (fn'.1 = 0%N \/ (fn'.1 < fn'.2)%N) /\ fn'.2 = (fn.2 + num_versions ops)%N /\ (fn.1 <= fn'.1)%N.
Proof.
  unfold num_versions. induction ops as [|o ops IH]; intros fn F; [cbn; split_and!; [done|lia|lia]|]. cbn [fold_left history flat_map]. fold (history ops). rewrite app_length.
  destruct (IH (floor_step fn o)) as (A & B & C); [destruct o; cbn; lia|]. split; [done|].
  assert ((floor_step fn o).2 = (fn.2 + N.of_nat (length (op_sets o)))%N /\ (fn.1 <= (floor_step fn o).1)%N) as [E1 E2] by (destruct o; cbn; lia). lia.
Qed.
(** the latest version is always readable *)
Lemma latest_readable ops : num_versions ops <> 0%N -> readable ops (num_versions ops - 1).
Proof. intros N. destruct (floor_inv ops (0, 0)%N ltac:(by left)) as (A & B & _). cbn [snd] in B. unfold readable, floor. lia. Qed.
Lemma history_app ops more : history (ops ++ more) = history ops ++ history more.
Proof. unfold history. by rewrite flat_map_app. Qed.
Lemma num_versions_app ops more : num_versions (ops ++ more) = (num_versions ops + num_versions more)%N.
Proof. unfold num_versions. rewrite history_app, app_length. lia. Qed.
Lemma floor_app ops more : (floor ops <= floor (ops ++ more))%N.
Proof.
  unfold floor. rewrite fold_left_app. destruct (floor_inv ops (0, 0)%N ltac:(by left)) as (A & _ & _).
  destruct (floor_inv more _ A) as (_ & _ & B). done.
Qed.
Lemma contents_at_app hist more v : (v < N.of_nat (length hist))%N -> contents_at (hist ++ more) v = contents_at hist v.
Proof. intros L. unfold contents_at. rewrite take_app_le; [done|]. lia. Qed.
