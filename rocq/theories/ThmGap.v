(** C85: skipped versions.  Commits at a version beyond the next one, restores beside older versions: the store holds several
    separate histories ("islands"), each of which behaves as if it were alone. *)
From Coq Require Import Strings.String.
From Verif Require CommitMono.
From Verif Require Import Base Spec SpecOrder SpecRange NodeType ProofDef TreeCache Tree Mock Driver KeyFacts SmtFacts ProofFacts NodeFacts Canon CanonSib ReadFacts PutFacts InsertFacts PutTop VersionFacts ValueFacts StoreFacts DriverFacts DriverFacts2 LeafVersion KeyOrder OrderFacts IterFacts ExclFacts ThmRange ThmIter ThmExcl ThmProof ThmStore ThmStore2 Demo Toy
  RangeFacts RestoreFacts RestoreFacts2 RestoreVerify RestoreTop RestoreRec RestoreDriver RestoreRun ThmRestore Restore ThmCrash ThmPurged ThmVersions ThmContinue ThmFirst ThmOver ThmUnknown ThmOrigin Beside.
From Coq Require Import Lia.
Local Opaque Spec.smt root_inputs ms_in.

(** *** Specification *)
(** A history that began at version [is_first] (0 for the first one of a store), has versions up to before [is_next], readable from [is_oldest] on, with the contents [is_what]. *)
Record island : Type := Island { is_first : version; is_next : version; is_oldest : version; is_what : version -> gmap key value }.
(** a purge affects every island; the last version of an island is never given up *)
Definition cut (o : op) (i : island) : island :=
  match o with Purge l => Island (is_first i) (is_next i) (N.max (is_oldest i) (N.min l (is_next i - 1))) (is_what i) | _ => i end.
(** an operation at the next version of an island *)
Definition grow (o : op) (i : island) : island :=
  Island (is_first i) (is_next i + N.of_nat (length (op_sets o))) (floor_step (is_oldest i, is_next i) o).1 (later (is_next i) (is_what i) [o]).
(** a new island, from version [v] on *)
Definition found (v : version) (o : op) : island :=
  Island v (v + N.of_nat (length (op_sets o))) v (fun w => contents_at (op_sets o) (w - v)).

Section gap.
Context (H : list byte -> bytes32).
(** [world is s]: the store [s] holds the islands [is], the youngest first. *)
Inductive world : list island -> store -> Prop :=
| world_in_use n f c s : in_use H n f c s -> world [Island 0 n f c] s
| world_step i is s o s' x : world (i :: is) s -> step H s (is_next i) o = Ok (s', x) -> world (grow o i :: map (cut o) is) s'
| world_gap i is s v o first rest s' x : world (i :: is) s -> (is_next i < v)%N -> op_sets o = first :: rest -> inserts first -> step H s v o = Ok (s', x) ->
    world (found v o :: i :: is) s'
| world_restored i is s n f c src ovf vs v root ns rs s' : world (i :: is) s -> (is_next i <= v)%N ->
    in_use H n f c src -> (f <= vs)%N -> (vs < n)%N -> c vs <> ∅ -> ~ hash_broken H (root_inputs H (c vs)) -> get_root_hash H (store_reader src) vs = Ok root ->
    deliver H ovf (store_reader src) vs (c vs) v root (map Deliver ns) (new_overwrite s v root) (entries (c vs)) = Ok (rs, []) -> finish H rs = Ok s' ->
    world (Island v (v + 1) v (fun _ => c vs) :: i :: is) s'.

(** *** Proof: each island has a store of its own, with the invariant of a store in use *)
Definition okayG (B : version) (i : island) (s : store) : Prop := exists ops' rest, N.of_nat (length (history ops')) = is_next i /\
  (let tb := xrun H tb0 ops' in SInvB H B s tb.1 tb.2 (history ops') (is_oldest i)) /\
  (forall w, (is_oldest i <= w)%N -> (w < is_next i)%N -> contents_at (history ops') w = is_what i w) /\ last_contents (history ops') = is_what i (is_next i - 1)%N /\
  history ops' = pad B ++ rest /\ ((is_oldest i < is_next i)%N \/ is_oldest i = 0%N /\ is_next i = 0%N).
Lemma okayG_okay B i s : okayG B i s -> okay H (is_next i) (is_oldest i) (is_what i) s.
Proof. intros (ops' & rest & En & S & Ec & El & _). by exists B, ops'. Qed.
Lemma okayG_le B i s : okayG B i s -> (B <= is_next i)%N.
Proof. intros (ops' & rest & <- & _ & _ & _ & -> & _). rewrite app_length. pose proof (pad_length B). lia. Qed.
Lemma okayG_below B i s : okayG B i s -> below (is_next i) s.
Proof.
  intros (ops' & rest & En & S & Ec & El & _). cbn zeta in S.
  assert (X : forall nk, is_Some (st_nodes s !! nk) -> (nk.1 < is_next i)%N).
  { intros nk [nd Hn]. apply (sb_nodes _ _ _ _ _ _ _ S) in Hn as [(y & Hy & _ & [-> _]) _]. rewrite <- En, <- (sb_len _ _ _ _ _ _ _ S). apply (tr_lt H); [by eapply sb_trok|done]. }
  split; [exact X| | |exact (sb_ov _ _ _ _ _ _ _ S)].
  - intros [w nk] I. apply X. destruct (purge_okB H B s _ _ _ _ w S) as (s' & P & _). unfold purge_stale_nodes in P.
    apply (purge_loop_needs _ _ _ (w, nk) P). apply elem_of_elements, elem_of_filter. split; [cbn; lia|exact I].
  - intros k [w x]. rewrite (sb_hist _ _ _ _ _ _ _ S k). intros Hl. apply hl_lt in Hl. cbn. lia.
Qed.
Lemma okayG_above B i s : okayG B i s -> above B s.
Proof.
  intros (ops' & rest & En & S & Ec & El & Eh & _). cbn zeta in S.
  assert (X : forall nk, is_Some (st_nodes s !! nk) -> (B <= nk.1)%N).
  { intros nk [nd Hn]. apply (sb_nodes _ _ _ _ _ _ _ S) in Hn as [(y & Hy & L & [-> _]) _]. exact L. }
  split; [exact X| | |exact (sb_ov _ _ _ _ _ _ _ S)].
  - intros [w nk] I. apply X. destruct (purge_okB H B s _ _ _ _ w S) as (s' & P & _). unfold purge_stale_nodes in P.
    apply (purge_loop_needs _ _ _ (w, nk) P). apply elem_of_elements, elem_of_filter. split; [cbn; lia|exact I].
  - intros k [w x]. rewrite (sb_hist _ _ _ _ _ _ _ S k), Eh. unfold pad. rewrite hl_nils. intros Hl. apply hl_lt in Hl. cbn. lia.
Qed.
Lemma cut_grow_same l i : grow (Purge l) i = Island (is_first i) (is_next (cut (Purge l) i)) (is_oldest (cut (Purge l) i)) (later (is_next i) (is_what i) [Purge l]).
Proof. unfold grow. cbn. by rewrite N.add_0_r. Qed.
Lemma rootl_sets B s ops' f sets : let tb := xrun H tb0 ops' in SInvB H B s tb.1 tb.2 (history ops') f ->
  rootl H (trn H tb.1 tb.2 sets) = map (fun j => smt_root H (apply_sets (last_contents (history ops')) (take (S j) sets))) (seq 0 (length sets)).
Proof.
  intros tb S. unfold rootl. apply list_eq. intros j. rewrite !list_lookup_fmap. destruct (trn H tb.1 tb.2 sets !! j) as [x|] eqn:E.
  - pose proof (lookup_lt_Some _ _ _ E) as Lj. rewrite trn_length in Lj. rewrite lookup_seq_lt by done. cbn [fmap option_fmap option_map].
    destruct (trn_mapsB H B _ _ _ _ _ sets S j x E) as [_ ->]. rewrite ms_nil. do 2 f_equal. unfold contents_at. rewrite take_app_ge by lia. unfold last_contents, apply_sets. rewrite fold_left_app. do 2 f_equal. lia.
  - apply lookup_ge_None in E. rewrite trn_length in E. by rewrite lookup_seq_ge.
Qed.
Lemma okayG_step B i s o : okayG B i s -> exists s' x, step H s (is_next i) o = Ok (s', x) /\ okayG B (grow o i) s' /\
  out_roots x = map (fun j => smt_root H (apply_sets (is_what i (is_next i - 1)%N) (take (S j) (op_sets o)))) (seq 0 (length (op_sets o))).
Proof.
  intros (ops' & rest & En & S & Ec & El & Eh & Fl). cbn zeta in S. destruct (step_okB H B s (xrun H tb0 ops') _ _ o S) as (s' & x & R & Ox & S').
  rewrite En in R, S'. exists s', x. split; [exact R|].
  set (n := is_next i) in *. set (c := is_what i) in *. set (f := is_oldest i) in *.
  assert (Ho : history [o] = op_sets o) by (unfold history; cbn [flat_map]; by rewrite app_nil_r).
  assert (X : forall w, (n <= w)%N \/ n = 0%N -> contents_at (history ops' ++ op_sets o) w = apply_sets (c (n - 1)%N) (take (N.to_nat (w - n) + 1) (op_sets o))).
  { intros w Lw. unfold contents_at. rewrite take_app_ge by lia. unfold apply_sets. rewrite fold_left_app. rewrite <- El. unfold last_contents, apply_sets. do 2 f_equal. lia. }
  split.
  - exists (ops' ++ [o]), (rest ++ op_sets o). rewrite history_app, Ho, xrun_app. unfold grow. cbn [is_next is_oldest is_what]. fold n c f.
    split; [rewrite app_length; lia|]. split; [exact S'|].
    assert (Mono : (f <= (floor_step (f, n) o).1)%N) by (destruct o; cbn; lia).
    split; [|split].
    + intros w L1 L2. unfold later. rewrite Ho. destruct (N.ltb_spec w n) as [Lw|Lw].
      * rewrite <- Ec; [|lia|done]. unfold contents_at. rewrite take_app_le by lia. done.
      * apply X. by left.
    + unfold later. rewrite Ho. destruct (N.ltb_spec (n + N.of_nat (length (op_sets o)) - 1) n) as [Lw|Lw].
      * assert (E0 : op_sets o = []) by (apply length_zero_iff_nil; lia). rewrite E0, app_nil_r, El. f_equal. cbn [length]. lia.
      * rewrite <- X by lia. unfold contents_at, last_contents. rewrite take_ge; [done|]. rewrite app_length. lia.
    + split; [by rewrite Eh, app_assoc|]. destruct Fl as [Fl|[Fl1 Fl2]]; [left; destruct o; cbn; lia|]. destruct o as [sets|sets|l]; cbn; destruct (decide (op_sets (Commit sets) = [])) as [Z|Z] || idtac; try lia.
  - pose proof (rootl_sets B s ops' f (op_sets o) S) as Er. rewrite El in Er. destruct o as [sets|sets|l], x as [roots b|rp b|]; try done; cbn [op_sets out_roots] in *.
    + destruct Ox as [-> _]. exact Er.
    + destruct Ox as (pfss & -> & Op & _). rewrite fst_zip; [exact Er|]. rewrite Er, map_length, seq_length. pose proof (pfss_ok_length _ _ _ _ Op). lia.
Qed.
(** a commit to the upper store, the lower one beside it *)
Lemma commit_beside u t s n F o s' x : below u t -> above u s' -> st_overwrite s = false -> (forall l, o <> Purge l) -> (F <= n)%N ->
  (forall w, (F <= w)%N -> st_nodes (beside t s) !! (w, []) = None) -> (n <> 0%N -> (F <= n - 1)%N \/ st_nodes s !! (n - 1, [])%N <> None) ->
  step H s n o = Ok (s', x) -> step H (beside t s) n o = Ok (beside t s', x).
Proof.
  intros T A Ho No LF Fresh Rt. set (rd := store_reader s). set (rd' := store_reader (beside t s)).
  assert (Le : forall nk nd, rd_node rd nk = Some nd -> rd_node rd' nk = Some nd) by (intros nk nd E; by apply beside_top).
  assert (Fr : forall w, (F <= w)%N -> rd_node rd' (w, []) = None) by exact Fresh.
  assert (Ec : cache_new rd' n = cache_new rd n).
  { unfold cache_new. destruct (N.eqb_spec n 0) as [->|N]; [|done]. assert (E' : rd_node rd' (nk_root PRE_GENESIS_VERSION) = None) by (apply Fr; lia).
    destruct (rd_node rd (nk_root PRE_GENESIS_VERSION)) as [nd|] eqn:E; [apply Le in E; congruence|]. by rewrite E'. }
  assert (Rh : CommitMono.rootish rd F (tc_root (cache_new rd n))).
  { unfold cache_new. destruct (N.eqb_spec n 0) as [->|N].
    - assert (E' : rd_node rd' (nk_root PRE_GENESIS_VERSION) = None) by (apply Fr; lia). destruct (rd_node rd (nk_root PRE_GENESIS_VERSION)) as [nd|] eqn:E; [apply Le in E; congruence|]. exists 0%N. split; [done|]. left. lia.
    - exists (n - 1)%N. split; [done|]. destruct (Rt N) as [R|R]; [by left|by right]. }
  destruct o as [sets|sets|l]; [| |by destruct (No l)]; cbn [step]; fold rd rd'; intros E.
  - unfold put_value_sets in *. rewrite Ec. apply bind_inv' in E as ([roots b] & E1 & E). apply bind_inv' in E1 as (c & E1 & Eb).
    rewrite (CommitMono.put_sets_le H rd rd' F Le Fr sets n _ c LF Rh E1), bind_Ok, Eb, bind_Ok. apply bind_inv' in E as (s1 & W & E). injection E as <- <-.
    by rewrite (write_beside u t s b s1 T A Ho W), bind_Ok.
  - unfold put_value_sets_with_proof in *. rewrite Ec. apply bind_inv' in E as ([roots b] & E1 & E). apply bind_inv' in E1 as (c & E1 & Eb).
    rewrite (CommitMono.put_sets_wp_le H rd rd' F Le Fr sets n _ c LF Rh E1), bind_Ok, Eb, bind_Ok. apply bind_inv' in E as (s1 & W & E). injection E as <- <-.
    by rewrite (write_beside u t s b s1 T A Ho W), bind_Ok.
Qed.
Lemma okayG_found v o first rest : v <> 0%N -> op_sets o = first :: rest -> inserts first -> exists st x, step H store_empty v o = Ok (st, x) /\ okayG v (found v o) st /\
  out_roots x = map (fun j => smt_root H (contents_at (op_sets o) (N.of_nat j))) (seq 0 (length (op_sets o))).
Proof.
  intros Hv Eo Hs. destruct (first_commit H v o first rest Hv Eo Hs) as (st & x & E & Ox & S). exists st, x. split; [exact E|].
  assert (Ep : history [Commit (pad v)] = pad v) by (cbn; by rewrite app_nil_r). assert (Eh : history [o] = op_sets o) by (unfold history; cbn [flat_map]; by rewrite app_nil_r).
  assert (L0 : last_contents (pad v) = ∅) by apply (apply_nils (N.to_nat v)). split.
  - exists ([Commit (pad v)] ++ [o]), (op_sets o). rewrite history_app, Eh, Ep, xrun_app. unfold found. cbn [is_next is_oldest is_what].
    split; [rewrite app_length; pose proof (pad_length v); lia|]. split; [exact S|]. split; [intros w L1 _; by apply pad_after|]. split.
    + assert (Lc : last_contents (op_sets o) = contents_at (op_sets o) (v + N.of_nat (length (op_sets o)) - 1 - v)).
      { unfold last_contents, contents_at. rewrite take_ge; [done|]. rewrite Eo. cbn [length]. lia. }
      rewrite <- Lc. unfold last_contents, apply_sets. rewrite fold_left_app. f_equal. exact L0.
    + split; [done|]. left. rewrite Eo. cbn [length]. lia.
  - destruct (run_ok H [Commit (pad v)]) as (st0 & xs0 & _ & _ & S0). pose proof (rootl_sets 0 st0 [Commit (pad v)] _ (op_sets o) S0) as Er. rewrite Ep, L0 in Er.
    assert (Ex : out_roots x = rootl H (trn H (xrun H tb0 [Commit (pad v)]).1 (xrun H tb0 [Commit (pad v)]).2 (op_sets o))).
    { destruct o as [sets|sets|l], x as [roots b|rp b|]; try done; cbn [op_sets out_roots] in *.
      - by destruct Ox as [-> _].
      - destruct Ox as (pfss & -> & Op & _). rewrite fst_zip; [done|]. rewrite Er, map_length, seq_length. pose proof (pfss_ok_length _ _ _ _ Op). lia. }
    rewrite Ex, Er. apply map_ext. intros j. unfold contents_at. rewrite Nat2N.id. reflexivity.
Qed.
Lemma okayG_based v m s : m <> ∅ -> based H v m s -> okayG v (Island v (v + 1) v (fun _ => m)) s.
Proof.
  intros Ne Bs. assert (Ehi : history [Commit (hist_of v m)] = hist_of v m) by (cbn; by rewrite app_nil_r).
  exists [Commit (hist_of v m)], [BatchTop.ins (entries m)]. rewrite Ehi. cbn [is_next is_oldest is_what].
  split; [rewrite hist_of_length; lia|]. split; [by apply (based_inv H v m s)|]. split.
  - intros w Lw1 Lw2. assert (w = v) as -> by lia. apply hist_of_at.
  - split; [apply hist_of_last|]. split; [done|]. left. lia.
Qed.
Lemma okayG_more z B n f c s more s' ys : okayG B (Island z n f c) s -> run_from H s n more = Ok (s', ys) ->
  okayG B (Island z (n + num_versions more) (fold_left floor_step more (f, n)).1 (later n c more)) s'.
Proof.
  intros (ops' & rest & En & S & Ec & El & Eh & Fl) E. cbn [is_next is_oldest is_what] in *. destruct (run_from_okB H B more s _ _ _ S) as (s1 & ys1 & R & _ & S'). rewrite En in R, S'. rewrite E in R. injection R as <- <-.
  exists (ops' ++ more), (rest ++ history more). rewrite history_app, xrun_app. cbn [is_next is_oldest is_what]. split; [rewrite app_length; unfold num_versions; lia|]. split; [exact S'|].
  assert (X : forall w, (n <= w)%N \/ n = 0%N -> contents_at (history ops' ++ history more) w = apply_sets (c (n - 1)%N) (take (N.to_nat (w - n) + 1) (history more))).
  { intros w Lw. unfold contents_at. rewrite take_app_ge by lia. unfold apply_sets. rewrite fold_left_app. rewrite <- El. unfold last_contents, apply_sets. do 2 f_equal. lia. }
  assert (Mono : forall more fn, (fn.1 <= (fold_left floor_step more fn).1)%N).
  { clear. induction more as [|o more IH]; intros fn; cbn [fold_left]; [lia|]. etrans; [|apply IH]. destruct o; cbn [floor_step fst]; lia. }
  split; [|split; [|split]].
  - intros w L1 L2. unfold later. destruct (N.ltb_spec w n) as [Lw|Lw].
    + rewrite <- Ec; [|pose proof (Mono more (f, n)) as M; cbn [fst] in M; lia|done]. unfold contents_at. rewrite take_app_le by lia. done.
    + apply X. by left.
  - unfold later. destruct (N.ltb_spec (n + num_versions more - 1) n) as [Lw|Lw].
    + assert (E0 : history more = []) by (apply length_zero_iff_nil; unfold num_versions in *; lia). rewrite E0, app_nil_r, El. f_equal. unfold num_versions. rewrite E0. cbn [length]. lia.
    + rewrite <- X by lia. unfold contents_at, last_contents. rewrite take_ge; [done|]. rewrite app_length. unfold num_versions. lia.
  - by rewrite Eh, app_assoc.
  - clear -Fl. assert (Z : forall more fn, (fn.1 < fn.2)%N \/ fn.1 = 0%N /\ fn.2 = 0%N -> let r := fold_left floor_step more fn in ((r.1 < r.2)%N \/ r.1 = 0%N /\ r.2 = 0%N) /\ r.2 = (fn.2 + num_versions more)%N).
    { clear. induction more as [|o more IH]; intros [a b] Hf; cbn [fold_left]; [split; [done|cbn; lia]|]. destruct (IH (floor_step (a, b) o)) as [A1 A2]; [destruct o; cbn in *; lia|]. split; [exact A1|]. rewrite A2. unfold num_versions. cbn [history flat_map]. fold (history more). rewrite app_length. destruct o; cbn; lia. }
    destruct (Z more (f, n) Fl) as [Z1 Z2]. cbn zeta in Z1, Z2. cbn [snd] in Z2. by rewrite Z2 in Z1.
Qed.
Lemma okayG_ext B i j s : okayG B i s -> is_next j = is_next i -> is_oldest j = is_oldest i -> (forall w, (w < is_next i)%N -> is_what j w = is_what i w) -> is_what j (is_next i - 1)%N = is_what i (is_next i - 1)%N -> okayG B j s.
Proof.
  intros (ops' & rest & A1 & A2 & A3 & A4 & A5 & A6) E1 E2 E3 E4. exists ops', rest. rewrite E1, E2. split; [exact A1|]. split; [exact A2|]. split; [|split; [by rewrite E4|by split]].
  intros w L1 L2. rewrite E3 by done. by apply A3.
Qed.
Lemma okayG_in_use z n f c s : in_use H n f c s -> exists B, okayG B (Island z n f c) s.
Proof.
  induction 1 as [|v o s sets st x Eo Hs E|n f c src ovf vs v root evs rs s U _ L1 L2 Ne NB Er D F|n f c s more s' ys _ (B & O) E].
  - exists 0%N, [], []. split; [done|]. split; [apply si_empty|]. split; [intros w; cbn; lia|]. split; [done|]. split; [done|]. by right.
  - destruct (decide (v = 0%N)) as [->|Hv].
    + assert (O : okayG 0 (Island z 0 0 (fun _ => ∅)) store_empty).
      { exists [], []. split; [done|]. split; [apply si_empty|]. split; [intros w; cbn; lia|]. split; [done|]. split; [done|]. by right. }
      exists 0%N. destruct (okayG_step 0 _ _ o O) as (s' & x' & E' & O' & _). cbn [is_next] in E'. rewrite E in E'. injection E' as <- <-.
      destruct O' as (ops' & rest & A1 & A2 & A3 & A4 & A5 & A6). assert (Eh : history [o] = op_sets o) by (unfold history; cbn [flat_map]; by rewrite app_nil_r). exists ops', rest.
      assert (Ef : (floor_step (0, 0)%N o).1 = 0%N) by (destruct o; [done|done|discriminate Eo]). unfold grow in *. cbn [is_next is_oldest is_what] in *. rewrite Ef in *.
      split; [exact A1|]. split; [exact A2|]. rewrite Eh in A3, A4 || unfold later in A3, A4. split; [|split; [|by split]].
      * intros w Lw1 Lw2. rewrite A3 by done. unfold later. rewrite Eh. destruct (N.ltb_spec w 0); [lia|]. unfold contents_at. by rewrite Nat.add_1_r.
      * rewrite A4. unfold later. rewrite Eh. destruct (N.ltb_spec (0 + N.of_nat (length (op_sets o)) - 1) 0); [lia|]. unfold contents_at. by rewrite Nat.add_1_r.
    + exists v. destruct (okayG_found v o s sets Hv Eo Hs) as (st' & x' & E' & O' & _). rewrite E in E'. injection E' as <- <-. eapply okayG_ext; [exact O'|done..].
  - exists v. destruct (okay_source H ovf _ _ _ _ _ v evs (in_use_okay _ _ _ _ _ U) L1 L2) as (st & xs & R & (_ & _ & Eroot & _) & E). rewrite E in D. rewrite Eroot in Er.
    pose proof (at_once_contents (c vs)) as Em. assert (Bs : based H v (c vs) s).
    { pose proof (restored_based H ovf (at_once (c vs)) st xs 0%N v root evs rs s R (at_once_readable _) Er) as Q. cbn zeta in Q. rewrite Em in Q. by destruct (Q Ne D F). }
    eapply okayG_ext; [by apply okayG_based|done..].
  - exists B. by eapply okayG_more.
Qed.
Lemma okayG_cut B i s l : okayG B i s -> exists s', purge_stale_nodes s l = Ok s' /\ okayG B (cut (Purge l) i) s'.
Proof.
  intros O. destruct (okayG_step B i s (Purge l) O) as (s' & x & E & O' & _). cbn [step] in E. apply bind_inv' in E as (s1 & P & E). injection E as <- <-. exists s1. split; [exact P|].
  eapply okayG_ext; [exact O'|unfold grow; cbn; lia|done|..]; unfold grow; cbn [is_what is_next op_sets length cut]; unfold later.
  - intros w L. destruct (N.ltb_spec w (is_next i)); [done|lia].
  - rewrite N.add_0_r. destruct (N.ltb_spec (is_next i - 1) (is_next i)) as [|L]; [done|]. unfold history. cbn [flat_map op_sets app]. rewrite take_nil. done.
Qed.
Inductive stacked : version -> list island -> store -> Prop :=
| stacked_nil : stacked 0 [] store_empty
| stacked_cons u is t B i s : stacked u is t -> (u <= B)%N -> (is_first i <= B)%N -> okayG B i s -> stacked (is_next i) (i :: is) (beside t s).
Lemma stacked_below u is t : stacked u is t -> below u t.
Proof.
  induction 1 as [|u is t B i s St T L L0 O].
  - split; cbn; [intros nk; rewrite lookup_empty; by intros [? ?]|set_solver|intros k a; rewrite lookup_empty; by intros ?%elem_of_nil|done].
  - pose proof (okayG_below B i s O) as S. pose proof (okayG_le B i s O) as Lb. pose proof (below_le u (is_next i) t T ltac:(lia)) as T'. split; [|cbn..].
    + intros nk [nd E]. apply beside_node in E as [E|E]; [apply (be_nodes _ _ S)|apply (be_nodes _ _ T')]; by eexists.
    + intros log [I|I]%elem_of_union; [by apply (be_stale _ _ S)|by apply (be_stale _ _ T')].
    + intros k a. rewrite layh_lookup. pose proof (be_hist _ _ S k a) as A. pose proof (be_hist _ _ T' k a) as A'. destruct (st_history t !! k), (st_history s !! k); cbn in *; [|auto..].
      intros [I|I]%elem_of_app; auto.
    + apply (be_ov _ _ T').
Qed.
Lemma stacked_purge l u is t : stacked u is t -> exists t', purge_stale_nodes t l = Ok t' /\ stacked u (map (cut (Purge l)) is) t'.
Proof.
  induction 1 as [|u is t B i s St (t' & P & IH) L L0 O].
  - exists store_empty. split; [|constructor]. unfold purge_stale_nodes. cbn [store_empty st_stale]. assert (E0 : filter (fun log : version * nodekey => (log.1 <= l)%N) (∅ : gset (version * nodekey)) = ∅) by set_solver. rewrite E0, elements_empty. reflexivity.
  - destruct (okayG_cut B i s l O) as (s' & P' & O'). exists (beside t' s'). split.
    + eapply (purge_beside B); [apply below_le with u; [by eapply stacked_below|done]|by eapply okayG_above|done|done].
    + cbn [map]. change (is_next i) with (is_next (cut (Purge l) i)). by econstructor.
Qed.
Lemma stacked_step u i is s o : stacked u (i :: is) s -> exists s' x, step H s (is_next i) o = Ok (s', x) /\ stacked (is_next (grow o i)) (grow o i :: map (cut o) is) s' /\
  out_roots x = map (fun j => smt_root H (apply_sets (is_what i (is_next i - 1)%N) (take (S j) (op_sets o)))) (seq 0 (length (op_sets o))).
Proof.
  intros St. pose proof (stacked_below _ _ _ St) as Bl. inversion St as [|u0 is0 t B i0 s0 St0 L L0 O Eu Ei Es]. subst. destruct (okayG_step B i s0 o O) as (s' & x & E & O' & Er).
  pose proof (below_le _ B _ (stacked_below _ _ _ St0) L) as T.
  assert (Dp : (exists l, o = Purge l) \/ ~ exists l, o = Purge l) by (destruct o; [right; by intros [? ?]|right; by intros [? ?]|left; by eexists]). destruct Dp as [[l ->]|No].
  - cbn [step] in E. apply bind_inv' in E as (s1 & P & E). injection E as <- <-. destruct (stacked_purge l _ _ _ St0) as (t' & Pt & St').
    exists (beside t' s1), OutPurge. split; [|split; [by econstructor|done]]. cbn [step]. by rewrite (purge_beside B t s0 l t' s1 T (okayG_above _ _ _ O) Pt P), bind_Ok.
  - exists (beside t s'), x. assert (map (cut o) is = is) as -> by (rewrite <- (map_id is) at 2; apply map_ext; intros j; destruct o; [done|done|by destruct No; eexists]).
    split; [|split; [by econstructor|done]]. eapply (commit_beside B t s0 (is_next i) (is_next i)); [exact T|by eapply okayG_above|exact (ab_ov _ _ (okayG_above _ _ _ O))|by intros l ->; apply No; eexists|lia| | |exact E].
    + intros w Lw. apply eq_None_not_Some. intros X%(be_nodes _ _ Bl). cbn in X. lia.
    + intros Nz. right. apply (ThmMockSteps.okay_root H _ _ _ _ _ (okayG_okay _ _ _ O)); [|lia]. destruct O as (_ & _ & _ & _ & _ & _ & _ & [F|[_ F]]); lia.
Qed.
Lemma stacked_gap u is t v o first rest : stacked u is t -> (u < v)%N -> op_sets o = first :: rest -> inserts first ->
  exists e s' x, step H store_empty v o = Ok (e, x) /\ step H t v o = Ok (s', x) /\ stacked (is_next (found v o)) (found v o :: is) s' /\
  out_roots x = map (fun j => smt_root H (contents_at (op_sets o) (N.of_nat j))) (seq 0 (length (op_sets o))).
Proof.
  intros St L Eo Hs. destruct (okayG_found v o first rest ltac:(lia) Eo Hs) as (e & x & E & O & Er). exists e, (beside t e), x. split; [exact E|].
  pose proof (stacked_below _ _ _ St) as T. split; [|split; [apply (stacked_cons u is t v); [done|lia|cbn; lia|done]|exact Er]].
  rewrite <- (beside_empty_r t) at 1. eapply (commit_beside v t store_empty v (v - 1)); [apply below_le with u; [done|lia]|by eapply okayG_above|done| |lia| | |exact E].
  - intros l ->. discriminate Eo.
  - intros w Lw. rewrite beside_empty_r. apply eq_None_not_Some. intros X%(be_nodes _ _ T). cbn in X. lia.
  - intros _. left. lia.
Qed.

Lemma stacked_restored u is t n f c src ovf vs v root ns : stacked u is t -> (u <= v)%N ->
  okay H n f c src -> (f <= vs)%N -> (vs < n)%N -> c vs <> ∅ -> ~ hash_broken H (root_inputs H (c vs)) -> get_root_hash H (store_reader src) vs = Ok root ->
  exists rs rest, deliver H ovf (store_reader src) vs (c vs) v root (map Deliver ns) (new_overwrite t v root) (entries (c vs)) = Ok (rs, rest) /\
    ((exists ns', ns = ns' ++ [size (c vs)]) -> rest = []) /\
    (rest = [] -> exists s', finish H rs = Ok s' /\ stacked (v + 1) (Island v (v + 1) v (fun _ => c vs) :: is) s').
Proof.
  intros St Lu O L1 L2 Ne NB Er. pose proof (below_le _ v _ (stacked_below _ _ _ St) Lu) as T.
  destruct (okay_source H ovf _ _ _ _ _ v [] O L1 L2) as (st & xs & R & (_ & _ & Eroot & _ & _ & Erp & _) & _). rewrite Eroot in Er.
  set (m := c vs) in *. pose proof (at_once_contents m) as Em. pose proof (at_once_readable m) as Rd.
  pose proof (deliver_all_ok H ovf (at_once m) st xs 0%N v root (map Deliver ns) R Rd Er) as D0. rewrite Em in D0. destruct D0 as [B|(rs & X & Y & E & Ho)]; [done|].
  assert (Dm : forall rs0 rest0, deliver H ovf (store_reader src) vs m v root (map Deliver ns) rs0 rest0 = deliver H ovf (store_reader st) 0 m v root (map Deliver ns) rs0 rest0) by (intros; by apply deliver_ext).
  assert (Fin : (exists ns', ns = ns' ++ [size m]) -> rest_of m X = []).
  { intros (ns' & En). pose proof (C34_restore_completes H ovf (at_once m) st xs 0%N v root (map Deliver ns') R Rd Er) as Q. cbn zeta in Q. rewrite Em in Q.
    destruct (Q Ne) as [|(rs1 & s1 & E1 & _)]; [done|]. rewrite En, map_app in E. cbn [map] in E. rewrite E1 in E. by injection E as _ <-. }
  pose proof (C34_restore_completes H ovf (at_once m) st xs 0%N v root (map Deliver ns) R Rd Er) as Q. cbn zeta in Q. rewrite Em in Q. destruct (Q Ne) as [|(rs1 & s1 & E1 & F1 & _)]; [done|]. clear Q.
  pose proof (restored_based H ovf (at_once m) st xs 0%N v root (map Deliver ns ++ [Deliver (size m)]) rs1 s1 R Rd Er) as Q. cbn zeta in Q. rewrite Em in Q. destruct (Q Ne E1 F1) as [|(C1 & _)]; [done|]. clear Q.
  assert (N1 : nodes_at v s1) by (intros [w p] [nd Hn]; by apply C1 in Hn as [-> _]).
  unfold deliver_all in E, E1. destruct (restore_new H store_empty v root) as [rs0| |] eqn:E0; [rewrite bind_Ok in E, E1|done|done].
  assert (Z0 : new_overwrite t v root = over t rs0).
  { unfold restore_new in E0. rewrite rightmost_none in E0 by done. injection E0 as <-. unfold over, sv, new_overwrite, lay. cbn. f_equal. destruct t as [tn ts th to]. cbn. f_equal.
    - by rewrite (left_id_L ∅ (∪)).
    - apply map_eq. intros k. rewrite layh_lookup, lookup_empty. by destruct (th !! k). }
  assert (F0 : fit v rs0).
  { unfold restore_new in E0. rewrite rightmost_none in E0 by done. injection E0 as <-. split; [done|]. split; [done|]. intros w k. cbn. rewrite lookup_empty. by intros [? ?]. }
  assert (Na : nodes_at v (rs_store rs)).
  { intros nk Hn. apply N1. eapply (finish_grow H); [exact F1|]. rewrite deliver_app, E, bind_Ok in E1. change [Deliver (size m)] with (map Deliver [size m]) in E1.
    eapply (deliver_grow H); [exact E1|done]. }
  destruct (over_deliver H v t (be_nodes _ _ T) (be_hist _ _ T) ovf (store_reader st) 0%N m root ns rs0 (entries m) rs (rest_of m X) F0 E Na) as [Fr D].
  exists (over t rs), (rest_of m X). rewrite Z0, Dm. split; [exact D|]. split; [exact Fin|]. intros Ee.
  destruct (finish_honest H v m rs X Y Ne Ho Ee) as (s & Ef & C & Eh).
  assert (Ns : nodes_at v s) by (intros [w p] [nd Hn]; by apply C in Hn as [-> _]).
  exists (lay t s). split; [by apply (over_finish H v t (be_nodes _ _ T) (be_hist _ _ T))|].
  assert (Bs : based H v m s).
  { destruct Fr as (_ & Fp & _). destruct (finish_plain H rs s Fp Ef) as [P1 P2]. done. }
  assert (El : lay t s = beside t s).
  { unfold lay, beside. f_equal. destruct Bs as (_ & _ & -> & _). by rewrite (left_id_L ∅ (∪)). }
  rewrite El. exact (stacked_cons u is t v (Island v (v + 1) v (fun _ => m)) s St Lu (N.le_refl _) (okayG_based v m s Ne Bs)).
Qed.
Lemma world_stacked is s : world is s -> exists u, stacked u is s /\ match is with i :: _ => u = is_next i | [] => False end.
Proof.
  induction 1 as [n f c s U|i is s o s' x W (u & St & ->) E|i is s v o first rest s' x W (u & St & ->) L Eo Hs E|i is s n f c src ovf vs v root ns rs s' W (u & St & ->) L U L1 L2 Ne NB Er D F].
  - destruct (okayG_in_use 0 n f c s U) as [B O]. exists n. split; [|done]. rewrite <- (beside_empty_l s) by (exact (ab_ov _ _ (okayG_above _ _ _ O))).
    apply (stacked_cons 0 [] store_empty B (Island 0 n f c)); [constructor|lia|cbn; lia|exact O].
  - destruct (stacked_step _ _ _ _ o St) as (s1 & x1 & E1 & St1 & _). rewrite E in E1. injection E1 as <- <-. by eexists.
  - destruct (stacked_gap _ _ _ v o first rest St L Eo Hs) as (e & s1 & x1 & _ & E1 & St1 & _). rewrite E in E1. injection E1 as <- <-. by eexists.
  - destruct (stacked_restored _ _ _ n f c src ovf vs v root ns St L (in_use_okay _ _ _ _ _ U) L1 L2 Ne NB Er) as (rs1 & rest & D1 & _ & K). rewrite D in D1. injection D1 as <- <-.
    destruct (K eq_refl) as (s1 & F1 & St1). rewrite F in F1. injection F1 as <-. by eexists.
Qed.

(** *** what is where in a stack of islands *)
Lemma stacked_le u is s : stacked u is s -> forall i, i ∈ is -> (is_first i <= u)%N /\ (is_next i <= u)%N.
Proof.
  induction 1 as [|u is t B i s St IH L L0 O]; intros j Hj; [by apply elem_of_nil in Hj|]. pose proof (okayG_le _ _ _ O) as Lb.
  apply elem_of_cons in Hj as [->|Hj]; [lia|]. apply IH in Hj. lia.
Qed.
Lemma stacked_island u is s i : stacked u is s -> i ∈ is -> exists B si, okayG B i si /\ (forall nk nd, st_nodes si !! nk = Some nd -> st_nodes s !! nk = Some nd) /\
  (forall w k x, (w < is_next i)%N -> store_value si w k = Some x -> store_value s w k = Some x).
Proof.
  intros St. revert i. induction St as [|u is t B i s St IH L L0 O]; intros j Hj; [by apply elem_of_nil in Hj|].
  pose proof (below_le _ B _ (stacked_below _ _ _ St) L) as T. pose proof (okayG_above _ _ _ O) as A. apply elem_of_cons in Hj as [->|Hj].
  - exists B, s. split; [exact O|]. split; [intros; by apply beside_top|]. intros w k x _. by apply beside_value_top.
  - destruct (IH j Hj) as (B' & si & O' & N' & V'). pose proof (proj2 (stacked_le _ _ _ St j Hj)) as Lj. exists B', si. split; [exact O'|]. split.
    + intros nk nd E. eapply beside_low; [exact T|exact A|]. by apply N'.
    + intros w k x Lw E. rewrite (beside_value_low B t s A) by lia. by apply V'.
Qed.
Lemma okayG_value B i s w k : okayG B i s -> (is_oldest i <= w)%N -> store_value s w k = if (w <? is_next i)%N then is_what i w !! k else is_what i (is_next i - 1)%N !! k.
Proof.
  intros (ops' & rest & En & S & Ec & El & _) L. pose proof (value_okB H B _ _ _ _ _ w k S) as V. cbn [store_reader rd_value] in V. rewrite V. destruct (N.ltb_spec w (is_next i)) as [Lw|Lw]; [by rewrite Ec|].
  rewrite <- El. unfold contents_at, last_contents. rewrite take_ge by lia. done.
Qed.
Lemma okayG_oldest B i s : okayG B i s -> (is_oldest i < is_next i)%N \/ is_oldest i = 0%N /\ is_next i = 0%N.
Proof. by intros (_ & _ & _ & _ & _ & _ & _ & F). Qed.
Lemma stacked_last u is s w k x : stacked u is s -> (u <= w)%N -> store_value s w k = Some x -> exists j, j ∈ is /\ is_what j (is_next j - 1)%N !! k = Some x.
Proof.
  intros St. revert w. induction St as [|u is t B i s St IH L L0 O]; intros w Lw E.
  - unfold store_value in E. cbn in E. by rewrite lookup_empty in E.
  - pose proof (below_le _ B _ (stacked_below _ _ _ St) L) as T. pose proof (okayG_le _ _ _ O) as Lb. pose proof (okayG_above _ _ _ O) as A. destruct (beside_value_or t s w k) as [Ev|[_ Ev]]; rewrite Ev in E.
    + rewrite (okayG_value _ _ _ _ _ O) in E by (pose proof (okayG_oldest _ _ _ O); lia). destruct (N.ltb_spec w (is_next i)); [lia|]. exists i. split; [by left|done].
    + destruct (IH w ltac:(lia) E) as (j & Hj & Ej). exists j. split; [by right|done].
Qed.
Lemma stacked_get u above i older s w k : stacked u (above ++ i :: older) s -> (is_oldest i <= w)%N -> (w < is_next i)%N ->
  (forall x, is_what i w !! k = Some x -> store_value s w k = Some x) /\
  (is_what i w !! k = None -> store_value s w k = None \/ exists j x, j ∈ older /\ is_what j (is_next j - 1)%N !! k = Some x /\ store_value s w k = Some x) /\
  (is_what i w !! k = None -> (exists w', (is_oldest i <= w')%N /\ (w' <= w)%N /\ is_what i w' !! k <> None) -> store_value s w k = None) /\
  (older = [] -> store_value s w k = is_what i w !! k).
Proof.
  revert u s. induction above as [|a above IH]; intros u s St L1 L2; cbn [app] in St; inversion St as [|u0 is0 t B i0 s0 St0 L L0 O Eu Ei Es]; subst.
  - pose proof (below_le _ B _ (stacked_below _ _ _ St0) L) as T. pose proof (okayG_above _ _ _ O) as A. pose proof (okayG_le _ _ _ O) as Lb.
    assert (V : forall w', (is_oldest i <= w')%N -> (w' < is_next i)%N -> store_value s0 w' k = is_what i w' !! k) by (intros w' A1 A2; rewrite (okayG_value _ _ _ _ _ O) by done; by destruct (N.ltb_spec w' (is_next i)); [|lia]).
    split; [|split; [|split]].
    + intros x Ex. apply beside_value_top. by rewrite V.
    + intros Ex. destruct (beside_value_or t s0 w k) as [Ev|[_ Ev]]; rewrite Ev; [left; by rewrite V|]. destruct (store_value t w k) as [x|] eqn:E; [right|by left].
      assert (u0 <= w)%N as Lw. { destruct O as (ops' & rest & En & S & _). cbn zeta in S. destruct (sb_base _ _ _ _ _ _ _ S) as [Eb|(_ & Lf & _)]; lia. }
      destruct (stacked_last _ _ _ w k x St0 Lw E) as (j & Hj & Ej). by exists j, x.
    + intros Ex (w' & A1 & A2 & A3). rewrite (beside_value t s0). rewrite <- V in Ex by done. rewrite store_value_find in Ex. destruct (List.find _ (rev (default [] (st_history s0 !! k)))) as [e|] eqn:Ef; [done|].
      exfalso. apply A3. rewrite <- V by lia. rewrite store_value_find. destruct (List.find (fun e => (e.1 <=? w')%N) (rev (default [] (st_history s0 !! k)))) as [e|] eqn:Ef'; [|done].
      apply find_some in Ef' as [I Le]. pose proof (find_none _ _ Ef e I) as N. cbn in N. apply N.leb_le in Le. apply N.leb_gt in N. lia.
    + intros ->. inversion St0; subst. rewrite beside_empty_l by apply A. by apply V.
  - pose proof (below_le _ B _ (stacked_below _ _ _ St0) L) as T. pose proof (okayG_above _ _ _ O) as A. destruct (stacked_le _ _ _ St0 i) as [_ Lu]; [apply elem_of_app; right; by left|].
    rewrite (beside_value_low B t s0 A) by lia. by apply (IH u0).
Qed.
Lemma stacked_missing u is s : stacked u is s -> (forall w, (u <= w)%N -> st_nodes s !! (w, []) = None) /\
  (forall a i j b w, is = a ++ i :: j :: b -> (is_next j <= w)%N -> (w < is_first i)%N -> st_nodes s !! (w, []) = None).
Proof.
  intros St. split.
  - intros w Lw. apply eq_None_not_Some. intros X%(be_nodes _ _ (stacked_below _ _ _ St)). cbn in X. lia.
  - induction St as [|u is t B i0 s St IH L L0 O]; intros a i j b w E A1 A2; [by destruct a|].
    pose proof (okayG_above _ _ _ O) as A. apply eq_None_not_Some. intros [nd Hn]. apply beside_node in Hn as [Hn|Hn].
    + assert (X : (B <= w)%N) by (apply (ab_nodes _ _ A (w, [])); by eexists). destruct a as [|a0 a]; injection E as -> ->; [lia|].
      destruct (stacked_le _ _ _ St i) as [Lu _]; [apply elem_of_app; right; by left|]. lia.
    + destruct a as [|a0 a]; injection E as -> ->.
      * assert (X : (w < u)%N) by (apply (be_nodes _ _ (stacked_below _ _ _ St) (w, [])); by eexists). inversion St; subst. lia.
      * rewrite (IH a i j b w eq_refl A1 A2) in Hn. done.
Qed.
(** *** C85, the islands of a store are independent *)
(** Every operation at the next version of the youngest island succeeds and does to it what it does to a store with that island alone; a purge
    is a purge of every island. *)
Theorem C85_step i is s o : world (i :: is) s -> exists s' x, step H s (is_next i) o = Ok (s', x) /\ world (grow o i :: map (cut o) is) s' /\
  out_roots x = map (fun j => smt_root H (apply_sets (is_what i (is_next i - 1)%N) (take (S j) (op_sets o)))) (seq 0 (length (op_sets o))).
Proof.
  intros W. destruct (world_stacked _ _ W) as (u & St & _). destruct (stacked_step _ _ _ _ o St) as (s' & x & E & _ & Er). exists s', x. split; [exact E|]. split; [by eapply world_step|exact Er].
Qed.
(** A commit beyond the next version, whose first set inserts something, starts from nothing: it returns what it returns on an empty store. *)
Theorem C85_gap i is s v o first rest : world (i :: is) s -> (is_next i < v)%N -> op_sets o = first :: rest -> inserts first ->
  exists s' x e, step H s v o = Ok (s', x) /\ step H store_empty v o = Ok (e, x) /\ world (found v o :: i :: is) s' /\
  out_roots x = map (fun j => smt_root H (contents_at (op_sets o) (N.of_nat j))) (seq 0 (length (op_sets o))).
Proof.
  intros W L Eo Hs. destruct (world_stacked _ _ W) as (u & St & ->). destruct (stacked_gap _ _ _ v o first rest St L Eo Hs) as (e & s' & x & E0 & E & _ & Er). exists s', x, e. split; [exact E|]. split; [exact E0|]. split; [by eapply world_gap|exact Er].
Qed.
(** A restore with [new_overwrite], at the next version or beyond, from any store in use: every split into chunks is accepted, and it completes. *)
Theorem C85_restore i is s n f c src ovf vs v root ns : world (i :: is) s -> (is_next i <= v)%N ->
  in_use H n f c src -> (f <= vs)%N -> (vs < n)%N -> c vs <> ∅ -> ~ hash_broken H (root_inputs H (c vs)) -> get_root_hash H (store_reader src) vs = Ok root ->
  exists rs s', deliver H ovf (store_reader src) vs (c vs) v root (map Deliver (ns ++ [size (c vs)])) (new_overwrite s v root) (entries (c vs)) = Ok (rs, []) /\ finish H rs = Ok s' /\
    world (Island v (v + 1) v (fun _ => c vs) :: i :: is) s'.
Proof.
  intros W L U L1 L2 Ne NB Er. destruct (world_stacked _ _ W) as (u & St & ->).
  destruct (stacked_restored _ _ _ n f c src ovf vs v root (ns ++ [size (c vs)]) St L (in_use_okay _ _ _ _ _ U) L1 L2 Ne NB Er) as (rs & rest & D & R & K).
  rewrite (R ltac:(by eexists)) in *. destruct (K eq_refl) as (s' & F & _). exists rs, s'. split; [exact D|]. split; [exact F|]. by eapply world_restored.
Qed.
(** *** C85, reads: every readable version of every island reads as its contents *)
Theorem C85_reads is s i w : world is s -> i ∈ is -> (is_oldest i <= w)%N -> (w < is_next i)%N -> tree_reads_as H (store_reader s) w (is_what i w).
Proof.
  intros W Hi L1 L2. destruct (world_stacked _ _ W) as (u & St & _). destruct (stacked_island _ _ _ i St Hi) as (B & si & O & Nn & Nv).
  set (rd := mkReader (fun nk => st_nodes si !! nk) (fun w k => if (w <? is_next i)%N then store_value si w k else None) None : reader).
  assert (V : view H rd w (is_what i w)).
  { eapply (view_mono H (store_reader si) rd w _ (is_next i)); [exact (okay_view H _ _ _ _ w (okayG_okay _ _ _ O) L1 L2)|done| |].
    - intros nk nd E. split; [exact E|]. apply (be_nodes _ _ (okayG_below _ _ _ O)). by eexists.
    - intros w' k L. cbn. by destruct (N.ltb_spec w' (is_next i)); [|lia]. }
  eapply (tree_reads_le H rd); [exact Nn| |by apply view_reader].
  intros w' k x. cbn. destruct (N.ltb_spec w' (is_next i)) as [L|L]; [|done]. by apply Nv.
Qed.
(** [get] too, for the keys the version has, and for those it had at an earlier readable version of the island; for a key the version lacks, [get] may answer with the last value an older
    island has for it; in the oldest island it is exact. *)
Theorem C85_get a i older s w k : world (a ++ i :: older) s -> (is_oldest i <= w)%N -> (w < is_next i)%N ->
  (forall x, is_what i w !! k = Some x -> get (store_reader s) k w = Ok (Some x)) /\
  (is_what i w !! k = None -> get (store_reader s) k w = Ok None \/ exists j x, j ∈ older /\ is_what j (is_next j - 1)%N !! k = Some x /\ get (store_reader s) k w = Ok (Some x)) /\
  (is_what i w !! k = None -> (exists w', (is_oldest i <= w')%N /\ (w' <= w)%N /\ is_what i w' !! k <> None) -> get (store_reader s) k w = Ok None) /\
  (older = [] -> get (store_reader s) k w = Ok (is_what i w !! k)).
Proof.
  intros W L1 L2. destruct (world_stacked _ _ W) as (u & St & _). destruct (stacked_get u a i older s w k St L1 L2) as (A1 & A2 & A3 & A4).
  assert (E : get (store_reader s) k w = Ok (store_value s w k)) by reflexivity. rewrite E. split; [|split; [|split]].
  - intros x Ex. by rewrite (A1 x Ex).
  - intros Ex. destruct (A2 Ex) as [->|(j & x & Hj & Ej & ->)]; [by left|right; by exists j, x].
  - intros Ex Hx. by rewrite (A3 Ex Hx).
  - intros Eo. by rewrite (A4 Eo).
Qed.
(** the versions after the last and those that were skipped are reported as missing *)
Theorem C85_missing is s w : world is s ->
  (exists i is', is = i :: is' /\ is_next i <= w)%N \/ (exists a i j b, is = a ++ i :: j :: b /\ is_next j <= w /\ w < is_first i)%N ->
  reports_missing H (store_reader s) w.
Proof.
  intros W Hw. destruct (world_stacked _ _ W) as (u & St & Eu). destruct (stacked_missing _ _ _ St) as [M1 M2]. apply no_root_missing. cbn [store_reader rd_node]. unfold nk_root. destruct Hw as [(i & is' & -> & L)|(a & i & j & b & -> & L1 & L2)].
  - apply M1. by rewrite Eu.
  - by eapply M2.
Qed.
End gap.

(** *** A concrete case: the demo history has the versions 0 to 4; a commit at version 9 skips four versions and starts from nothing, then
    version 11 is committed and everything up to version 10 is purged.  Versions 4 and 10 still read as they should; [get] of K80 at version 10, which lacks
    it, gives the value of version 4; version 7 is missing. *)
Theorem demo_gap : exists st xs s1 x1 s2 x2 s3 x3 i j, run toy demo = Ok (st, xs) /\
  step toy st 9 (Commit [ [(K00, Some va)]; [(KC0, Some va)] ]) = Ok (s1, x1) /\ step toy s1 11 (CommitP [ [(K00, None)] ]) = Ok (s2, x2) /\ step toy s2 12 (Purge 10) = Ok (s3, x3) /\
  world toy [i; j] s3 /\ is_first i = 9%N /\ is_next i = 12%N /\ is_oldest i = 10%N /\ is_next j = 5%N /\ is_oldest j = 4%N /\
  is_what i 10%N = {[ K00 := va; KC0 := va ]} /\ is_what i 11%N = {[ KC0 := va ]} /\ is_what j 4%N = demo_map /\
  get (store_reader s3) K80 10 = Ok (demo_map !! K80) /\ demo_map !! K80 <> None /\
  tree_reads_as toy (store_reader s3) 10 {[ K00 := va; KC0 := va ]} /\ tree_reads_as toy (store_reader s3) 4 demo_map /\ reports_missing toy (store_reader s3) 7.
Proof.
  destruct (C82_goes_on toy 0 0 _ _ demo (in_use_empty toy)) as (st & xs & R & U). assert (E5 : (0 + num_versions demo)%N = 5%N) by reflexivity. assert (Ef : (fold_left floor_step demo (0, 0)%N).1 = 2%N) by reflexivity. rewrite E5, Ef in U.
  set (c := later 0 (fun _ => ∅) demo) in *. assert (Ec : c 4%N = demo_map) by (apply (bool_decide_eq_true_1 _); vm_compute; reflexivity).
  pose proof (world_in_use toy _ _ _ _ U) as W.
  destruct (C85_gap toy _ _ _ 9 (Commit [ [(K00, Some va)]; [(KC0, Some va)] ]) _ _ W ltac:(reflexivity) eq_refl) as (s1 & x1 & e1 & S1 & _ & W1 & _); [by exists K00, va; left|].
  destruct (C85_step toy _ _ _ (CommitP [ [(K00, None)] ]) W1) as (s2 & x2 & S2 & W2 & _). destruct (C85_step toy _ _ _ (Purge 10) W2) as (s3 & x3 & S3 & W3 & _).
  change (world toy [grow (Purge 10) (grow (CommitP [ [(K00, None)] ]) (found 9 (Commit [ [(K00, Some va)]; [(KC0, Some va)] ]))); cut (Purge 10) (cut (CommitP [ [(K00, None)] ]) (Island 0 5 2 c))] s3) in W3. match type of W3 with world _ [?a; ?b] _ => set (i := a) in W3; set (j := b) in W3 end.
  assert (N1 : is_next i = 12%N) by reflexivity. assert (N2 : is_oldest i = 10%N) by reflexivity. assert (N3 : is_next j = 5%N) by reflexivity. assert (N4 : is_oldest j = 4%N) by reflexivity.
  assert (C1 : is_what i 10%N = {[ K00 := va; KC0 := va ]}) by (apply (bool_decide_eq_true_1 _); vm_compute; reflexivity).
  assert (C2 : is_what i 11%N = {[ KC0 := va ]}) by (apply (bool_decide_eq_true_1 _); vm_compute; reflexivity).
  assert (G : match run toy demo with Ok (a, _) => match step toy a 9 (Commit [ [(K00, Some va)]; [(KC0, Some va)] ]) with Ok (b, _) => match step toy b 11 (CommitP [ [(K00, None)] ]) with Ok (d, _) => match step toy d 12 (Purge 10) with Ok (e, _) =>
      bool_decide (store_value e 10 K80 = demo_map !! K80) | _ => false end | _ => false end | _ => false end | _ => false end = true) by (vm_compute; reflexivity).
  assert (R' : run toy demo = Ok (st, xs)) by exact R. rewrite R', S1 in G. change (is_next (found 9 (Commit [ [(K00, Some va)]; [(KC0, Some va)] ]))) with 11%N in S2. rewrite S2 in G.
  match type of S3 with step _ _ ?n _ = _ => change n with 12%N in S3 end. rewrite S3 in G. apply bool_decide_eq_true in G.
  exists st, xs, s1, x1, s2, x2, s3, x3, i, j. split; [exact R'|]. split; [exact S1|]. split; [exact S2|]. split; [exact S3|]. split; [exact W3|]. split; [reflexivity|]. split; [exact N1|]. split; [exact N2|]. split; [exact N3|]. split; [exact N4|].
  split; [exact C1|]. split; [exact C2|]. split; [exact Ec|]. split; [unfold get; cbn [store_reader rd_value]; by rewrite G|]. split; [vm_compute; discriminate|].
  pose proof (C85_reads toy _ _ i 10 W3 ltac:(by left) ltac:(rewrite N2; lia) ltac:(rewrite N1; lia)) as Q1. rewrite C1 in Q1.
  pose proof (C85_reads toy _ _ j 4 W3 ltac:(right; by left) ltac:(rewrite N4; lia) ltac:(rewrite N3; lia)) as Q2. rewrite Ec in Q2 || change (is_what j 4%N) with (c 4%N) in Q2. rewrite ?Ec in Q2.
  split; [exact Q1|]. split; [exact Q2|]. apply (C85_missing toy _ _ 7 W3). right. exists [], i, j, []. split; [reflexivity|]. split; [rewrite N3; lia|]. change (is_first i) with 9%N. lia.
Qed.
