(** C66: a restored store can be continued.  After a tree has been restored as version [v] into an empty store, commits and
    purges go on from version [v + 1] as on a store that had reached that tree by commits. *)
From Coq Require Import Strings.String.
From Verif Require BatchTop.
From Verif Require Import Base Spec SpecOrder SpecRange NodeType ProofDef TreeCache Tree Mock Driver Iterator Exclusion Restore KeyFacts SmtFacts ProofFacts NodeFacts Canon CanonSib ReadFacts PutFacts InsertFacts PutTop VersionFacts ValueFacts StoreFacts DriverFacts DriverFacts2 LeafVersion KeyOrder OrderFacts IterFacts ExclFacts ThmProof ThmStore ThmStore2 ThmRange ThmIter ThmExcl Demo Toy
  RangeFacts RestoreFacts RestoreFacts2 RestoreVerify RestoreTop RestoreRec RestoreDriver RestoreRun ThmRestore ThmCrash.
From Coq Require Import Lia.
Local Opaque Spec.smt root_inputs ms_in.

(** *** specification: versions of a store that starts with one version [v] and goes through [more] *)
(** the versions that can be read: [v] and the later ones, but for those given up by a purge (floor_step: Driver.v) *)
Definition readable_after (v : version) (more : list op) (w : version) : Prop :=
  ((fold_left floor_step more (v, v + 1)).1 <= w)%N /\ (w <= v + num_versions more)%N.
(** the contents of version [w], given those of version [v] *)
Definition contents_after (v : version) (m : gmap key value) (more : list op) (w : version) : gmap key value :=
  apply_sets m (take (N.to_nat (w - v)) (history more)).

Section based.
Context (H : list byte -> bytes32).
(** the store holds the tree of [m], all of it as version [B], and nothing else *)
Definition based (B : version) (m : gmap key value) (s : store) : Prop :=
  complete H B s (H <$> m) /\ st_history s = hist1 B m /\ st_stale s = ∅ /\ st_overwrite s = false.
(** a history that leads there *)
Definition hist_of (B : version) (m : gmap key value) : list value_set := replicate (N.to_nat B) [] ++ [BatchTop.ins (entries m)].
Lemma hist_of_length B m : length (hist_of B m) = S (N.to_nat B).
Proof. unfold hist_of. rewrite app_length, replicate_length. cbn. lia. Qed.
Lemma apply_entries m : apply_set ∅ (BatchTop.ins (entries m)) = m.
Proof. apply map_eq. intros k. rewrite apply_set_lookup, BatchTop.last_write_entries, lookup_empty. by destruct (m !! k). Qed.
Lemma apply_nils n : apply_sets ∅ (replicate n []) = ∅.
Proof. induction n as [|n IH]; [done|]. exact IH. Qed.
Lemma hist_of_before B m i : (i < B)%N -> contents_at (hist_of B m) i = ∅.
Proof.
  intros L. unfold contents_at, hist_of. rewrite take_app_le by (rewrite replicate_length; lia). rewrite take_replicate. apply apply_nils.
Qed.
Lemma hist_of_last B m : last_contents (hist_of B m) = m.
Proof. unfold last_contents, hist_of, apply_sets. rewrite fold_left_app. fold (apply_sets ∅ (replicate (N.to_nat B) [])). rewrite apply_nils. cbn [fold_left]. apply apply_entries. Qed.
Lemma hist_of_at B m : contents_at (hist_of B m) B = m.
Proof. unfold contents_at. rewrite take_ge by (rewrite hist_of_length; lia). apply hist_of_last. Qed.
Lemma hist_of_after B m more w : (B <= w)%N -> contents_at (hist_of B m ++ history more) w = contents_after B m more w.
Proof.
  intros L. unfold contents_at, contents_after. rewrite take_app_ge by (rewrite hist_of_length; lia). unfold apply_sets. rewrite fold_left_app. fold (apply_sets ∅ (hist_of B m)).
  change (apply_sets ∅ (hist_of B m)) with (last_contents (hist_of B m)). rewrite hist_of_last, hist_of_length. do 2 f_equal. lia.
Qed.
Lemma hl_nils n : forall v k hist, hl v (replicate n [] ++ hist) k = hl (v + N.of_nat n) hist k.
Proof. induction n as [|n IH]; intros v k hist; cbn [replicate app]; [f_equal; lia|]. cbn [hl]. rewrite IH. cbn. f_equal. lia. Qed.
Lemma hist1_ok B m : hist_ok (hist1 B m) (hist_of B m).
Proof.
  intros k. unfold hist_of. rewrite hl_nils. cbn [hl]. rewrite BatchTop.last_write_entries. unfold hist1. rewrite lookup_fmap.
  destruct (m !! k) as [x|]; cbn; [|done]. do 2 f_equal. lia.
Qed.
Lemma occn_lv M q : occn M q <-> lv [] q M.
Proof.
  split.
  - intros [Ne F]. split; [apply prefix_nil|]. split; [done|]. destruct (decide (q = [])) as [->|Nq]; [by left|right].
    destruct (parent_eq q Nq) as [x E]. apply F; [rewrite E at 2; by apply prefix_app_r|]. intros E2. rewrite E2 in E. apply (f_equal length) in E. rewrite app_length in E. cbn in E. lia.
  - intros (_ & Ne & F). split; [done|]. intros r [t ->] Nr. destruct F as [F|F]; [apply app_eq_nil in F as [-> ->]; done|].
    assert (Nt : t <> []) by (intros ->; apply Nr; by rewrite app_nil_r). rewrite parent_app in F by done. by eapply U_many_up.
Qed.

Lemma based_inv B m s : m <> ∅ -> based B m s -> let tb := xrun H tb0 [Commit (hist_of B m)] in SInvB H B s tb.1 tb.2 (hist_of B m) B.
Proof.
  intros Nm (C & Eh & Es & Eo) tb. destruct (run_ok H [Commit (hist_of B m)]) as (st0 & xs & _ & _ & S). fold tb in S.
  assert (Ehi : history [Commit (hist_of B m)] = hist_of B m) by (cbn; by rewrite app_nil_r). rewrite Ehi in S.
  pose proof (si_trok _ _ _ _ _ _ S) as T. pose proof T as (T1 & T2 & T3 & T4 & T5 & T6). pose proof (si_len _ _ _ _ _ _ S) as Len. rewrite hist_of_length in Len.
  assert (E0 : forall x, x ∈ tb.1 -> (vs_v x < B)%N -> a_map (vs_a x) = ∅).
  { intros x (i & Ei)%elem_of_list_lookup Lx. rewrite (T1 _ _ Ei) in Lx. rewrite (si_map _ _ _ _ _ _ S _ _ Ei), hist_of_before by done. apply fmap_empty. }
  assert (Nul : forall x nk nd, x ∈ tb.1 -> nodes_of H x nk nd -> (vs_v x < B)%N -> nd = Null).
  { intros x nk nd Hx (_ & -> & _) L. rewrite (E0 x Hx L). apply node_at_null. apply map_empty. intros k. apply eq_None_not_Some. intros [z Z]. by apply U_lookup in Z as [? _]. }
  assert (NS : forall s' nk, ~ stale_at tb.1 s' nk).
  { intros s' nk (x & Hx & _ & Sx). pose proof (T2 x nk Hx Sx) as (L & y & Hy & N). pose proof (tr_lt H _ _ T Hx) as Lx. pose proof N as [Ev _].
    assert (Z := Nul y nk _ Hy N ltac:(lia)). destruct Sx as [[(_ & Lv & _) _] _]. by apply (node_at_some H _ (vs_ver0 x) _ Lv) in Z. }
  assert (HB : exists xB, tb.1 !! N.to_nat B = Some xB) by (apply lookup_lt_is_Some_2; lia). destruct HB as [xB EB].
  assert (VB : vs_v xB = B) by (rewrite (T1 _ _ EB); lia).
  assert (MB : a_map (vs_a xB) = H <$> m) by (rewrite (si_map _ _ _ _ _ _ S _ _ EB), N2Nat.id, hist_of_at; done).
  assert (InB : xB ∈ tb.1) by (by eapply elem_of_list_lookup_2).
  assert (OnlyB : forall x, x ∈ tb.1 -> (B <= vs_v x)%N -> x = xB).
  { intros x Hx L. pose proof (tr_lt H _ _ T Hx). apply (tr_inj H tb.1); [done..|]. lia. }
  assert (Ver : forall q, q <> [] -> lv [] q (H <$> m) -> a_ver (vs_a xB) q = B).
  { intros q Nq L. destruct (T5 xB (a_ver (vs_a xB) q, q) InB) as (z & Hz & N); [right; cbn; rewrite MB; done|]. pose proof N as [Ev _]. cbn in Ev.
    destruct (decide (B <= vs_v z)%N) as [Lz|Lz]; [apply OnlyB in Lz; [|done]; congruence|]. apply Nul in N; [|done|lia]. unfold node_val in N. cbn in N. rewrite MB in N.
    destruct L as (_ & L & _). by apply (node_at_some H _ (a_ver (vs_a xB)) _ L) in N. }
  assert (NA : forall q, node_at H (H <$> m) (a_ver (vs_a xB)) q = node_at H (H <$> m) (fun _ => B) q).
  { intros q. apply node_at_ext; [done|]. intros S2 n Ne. apply Ver; [by destruct q|]. split; [apply prefix_nil|]. split; [done|]. right. by rewrite parent_snoc. }
  split.
  - exact (si_tr _ _ _ _ _ _ S).
  - exact (si_len _ _ _ _ _ _ S).
  - exact Eo.
  - intros s' nk. rewrite Es. by intros ?%elem_of_empty.
  - intros [w q] nd. rewrite (C w q nd), occn_lv. split.
    + intros (-> & L & ->). split; [|intros s' Sx; by apply NS in Sx]. exists xB. split; [done|]. split; [lia|]. split; [cbn; done|]. split; [cbn [snd]; by rewrite MB, NA|].
      cbn [snd]. destruct (decide (q = [])) as [->|Nq]; [by left|]. right. rewrite MB, VB. split; [done|by apply Ver].
    + intros [(x & Hx & Lx & N) _]. apply OnlyB in Lx; [|done]. subst x. destruct N as (N1 & -> & N3). cbn [fst snd] in *. rewrite MB in *. split; [congruence|]. split; [|by rewrite NA].
      destruct N3 as [->|[N3 _]]; [|done]. split; [apply prefix_nil|]. split; [|by left]. rewrite U_nil. intros Z. by apply fmap_empty_inv in Z.
  - intros s' nk Sx. by apply NS in Sx.
  - rewrite Eh. apply hist1_ok.
  - exact (si_map _ _ _ _ _ _ S).
  - destruct (decide (B = 0%N)) as [->|]; [by left|]. right. split; [lia|]. split; [lia|]. exact E0.
Qed.

(** reads of a store with a base version, reached like a run of [ops'] *)
Lemma sb_view B st ops' f w : let tb := xrun H tb0 ops' in SInvB H B st tb.1 tb.2 (history ops') f -> (f <= w)%N -> (w < N.of_nat (length (history ops')))%N ->
  view H (store_reader st) w (contents_at (history ops') w).
Proof.
  intros tb S L1 L2. destruct (read_okB H B _ _ _ _ _ w S L1 L2) as (x & E & Vx & Mx & St).
  exists (a_ver (vs_a x)). split; [done|]. split; [|intros k; by eapply value_okB].
  intros p n k y Mn EU. rewrite (value_okB H B _ _ _ _ _ _ _ S).
  pose proof (run_leaf_value H ops' x (N.to_nat w) k (p ++ [n]) (H y)) as L. rewrite N2Nat.id in L. rewrite L; [..|done| | |].
  + assert (X : U (p ++ [n]) (contents_at (history ops') w) !! k = Some y) by (rewrite EU; apply lookup_singleton). by apply U_lookup in X as [X _].
  + destruct p; discriminate.
  + rewrite parent_snoc, Mx, U_fm_size. done.
  + rewrite Mx, U_fm, EU. apply map_fmap_singleton.
Qed.
(** from such a store on *)
Lemma based_run B m s more : m <> ∅ -> based B m s -> exists s' ys, run_from H s (B + 1) more = Ok (s', ys) /\
  flat_map out_roots ys = map (fun i => smt_root H (apply_sets m (take (S i) (history more)))) (seq 0 (length (history more))) /\
  (forall w, readable_after B more w -> reads_as H s' w (contents_after B m more w)) /\
  let tb := xrun H tb0 (Commit (hist_of B m) :: more) in SInvB H B s' tb.1 tb.2 (hist_of B m ++ history more) (fold_left floor_step more (B, B + 1)%N).1.
Proof.
  intros Nm Bs. pose proof (based_inv B m s Nm Bs) as S. set (tb := xrun H tb0 [Commit (hist_of B m)]) in *. cbn zeta in S.
  assert (EB : N.of_nat (length (hist_of B m)) = (B + 1)%N) by (rewrite hist_of_length; lia).
  destruct (run_from_okB H B more s tb (hist_of B m) B S) as (s' & ys & R & O & S'). rewrite EB in R, S'. exists s', ys. split; [done|].
  assert (Etb : xrun H tb0 (Commit (hist_of B m) :: more) = xrun H tb more) by done.
  pose proof (sb_len _ _ _ _ _ _ _ S) as Len. pose proof (sb_len _ _ _ _ _ _ _ S') as Len'. rewrite hist_of_length in Len. rewrite app_length, hist_of_length in Len'.
  split; [|split; [|rewrite Etb; exact S']].
  - apply outs_ok_roots in O. apply (f_equal (drop (length tb.1))) in O. rewrite drop_app_alt in O by (unfold rootl; by rewrite map_length). rewrite O.
    apply list_eq. intros i. unfold rootl. rewrite lookup_drop, !list_lookup_fmap.
    destruct ((xrun H tb more).1 !! (length tb.1 + i)) as [x|] eqn:E.
    + pose proof (lookup_lt_Some _ _ _ E). rewrite lookup_seq_lt by lia. cbn [fmap option_fmap option_map]. rewrite (sb_map _ _ _ _ _ _ _ S' _ _ E), ms_nil.
      rewrite hist_of_after by lia. unfold contents_after. do 4 f_equal. lia.
    + apply lookup_ge_None in E. rewrite lookup_seq_ge by lia. done.
  - intros w [L1 L2]. rewrite <- (hist_of_after B m more w) by (pose proof (sb_floor_ge _ _ _ _ _ _ _ S'); lia). apply view_reads.
    change (hist_of B m ++ history more) with (history (Commit (hist_of B m) :: more)) in S' |- *. eapply sb_view; [exact S'|done|].
    change (history (Commit (hist_of B m) :: more)) with (hist_of B m ++ history more). rewrite app_length, hist_of_length. unfold num_versions in L2. lia.
Qed.
End based.

(** *** a completed restore leaves such a store *)
Section restored.
Context (H : list byte -> bytes32).
(** the restore touches neither the stale index nor the overwrite flag *)
Definition plain (s : store) : Prop := st_stale s = ∅ /\ st_overwrite s = false.
Lemma write_plain s nodes vals s' : plain s -> write_node_batch s nodes vals = Ok s' -> plain s'.
Proof.
  intros [P1 P2]. unfold write_node_batch. destruct (assert_ _) as [[]| |]; [rewrite bind_Ok|done|done]. destruct (write_values _ _) as [h| |]; [rewrite bind_Ok|done|done].
  by intros [= <-].
Qed.
Lemma flush_plain rs rs' e : plain (rs_store rs) -> flush rs = Ok (rs', e) -> plain (rs_store rs').
Proof.
  intros P. rewrite flush_eq. destruct (write_node_batch _ _ _) as [s| |] eqn:E; [| |done]; intros [= <- _]; cbn [rs_store]; [by eapply write_plain|].
  destruct (MockStepFacts.write_io_grow (rs_store rs) (rs_fnodes rs) (rs_fvalues rs)) as (A & B & _). destruct P as [P1 P2]. split; [by rewrite A|by rewrite B].
Qed.
Lemma add_chunk_plain ovf rs ch p rs' e : plain (rs_store rs) -> add_chunk H ovf rs ch p = Ok (rs', e) -> plain (rs_store rs').
Proof.
  intros P. unfold add_chunk. destruct ch as [|c0 ch]; [by intros [= <- _]|]. destruct (push_chunk H rs (c0 :: ch)) as [[rs1 e1]| |] eqn:E; [rewrite bind_Ok|done|done].
  apply push_chunk_store in E. cbn [fst] in E. destruct e1; [intros [= <- _]; congruence|]. destruct (rverify H ovf rs1 p) as [[]| |]; [|intros [= <- _]; congruence|done].
  intros Ef. eapply flush_plain; [|done]. congruence.
Qed.
Lemma restore_new_store s v root rs : restore_new H s v root = Ok rs -> rs_store rs = s.
Proof.
  unfold restore_new. destruct (store_rightmost s) as [[nk l]|]; [|intros [= <-]; done].
  destruct (recover_partial_nodes H s v nk) as [ps| |]; [rewrite bind_Ok|done|done]. by intros [= <-].
Qed.
Lemma deliver_plain ovf src vs m v root evs : forall rs rest rs' rest', plain (rs_store rs) -> deliver H ovf src vs m v root evs rs rest = Ok (rs', rest') -> plain (rs_store rs').
Proof.
  induction evs as [|[n|] evs IH]; intros rs rest rs' rest' P; cbn [deliver]; [by intros [= <- _]| |].
  - destruct (last (take (n + 1) rest)) as [[k x]|]; [|by apply IH]. destruct (get_range_proof H src k vs) as [p| |]; [rewrite bind_Ok|done|done].
    destruct (add_chunk H ovf rs (take (n + 1) rest) p) as [[rs1 [e|]]| |] eqn:E; [done| |done|done]. rewrite bind_Ok. apply IH. by eapply add_chunk_plain.
  - destruct (restore_new H (rs_store rs) v root) as [rs1| |] eqn:E; [rewrite bind_Ok|done|done]. apply IH. by rewrite (restore_new_store _ _ _ _ E).
Qed.
Lemma finish_plain rs s : plain (rs_store rs) -> finish H rs = Ok s -> plain s.
Proof.
  intros P. unfold finish. destruct (match rs_partial rs with [] => None | _ => _ end) as [l|].
  - destruct (assert_ _) as [[]| |]; [rewrite bind_Ok|done|done]. by apply write_plain.
  - destruct (rfreeze H rs 0) as [rs1| |] eqn:E; [rewrite bind_Ok|done|done]. apply rfreeze_store in E. apply write_plain. congruence.
Qed.
Lemma restored_based ovf ops st xs vs v root evs rs s : run H ops = Ok (st, xs) -> readable ops vs -> get_root_hash H (store_reader st) vs = Ok root ->
  let m := contents_at (history ops) vs in m <> ∅ ->
  deliver_all H ovf (store_reader st) vs m v root evs = Ok (rs, []) -> finish H rs = Ok s -> hash_broken H (root_inputs H m) \/ based H v m s.
Proof.
  intros R L Er m Nm D F. destruct (deliver_all_ok H ovf ops st xs vs v root evs R L Er) as [B|(r & X & Y & E & Ho)]; [by left|right]. fold m in E, Ho.
  rewrite D in E. injection E as <- Z. destruct (finish_honest H v m rs X Y Nm Ho (eq_sym Z)) as (t & G & C & Eh). rewrite F in G. injection G as <-.
  assert (P : plain s). { eapply finish_plain; [|done]. revert D. unfold deliver_all. destruct (restore_new H store_empty v root) as [rs0| |] eqn:E0; [rewrite bind_Ok|done|done].
    apply deliver_plain. by rewrite (restore_new_store _ _ _ _ E0). }
  destruct P. by split_and!.
Qed.

(** *** C66 *)
Theorem C66_restored_store_continues (ovf : bool) (ops : list op) st xs (vs v : version) (root : hash) (evs : list event) rs s (more : list op) :
  run H ops = Ok (st, xs) -> readable ops vs -> get_root_hash H (store_reader st) vs = Ok root -> let m := contents_at (history ops) vs in m <> ∅ ->
  deliver_all H ovf (store_reader st) vs m v root evs = Ok (rs, []) -> finish H rs = Ok s ->
  hash_broken H (root_inputs H m) \/
  exists s' ys, run_from H s (v + 1) more = Ok (s', ys) /\
    flat_map out_roots ys = map (fun i => smt_root H (apply_sets m (take (S i) (history more)))) (seq 0 (length (history more))) /\
    (forall w, readable_after v more w -> reads_as H s' w (contents_after v m more w)).
Proof.
  intros R L Er m Nm D F. destruct (restored_based ovf ops st xs vs v root evs rs s R L Er Nm D F) as [B|Bs]; [by left|right].
  destruct (based_run H v m s more Nm Bs) as (s' & ys & E & Er' & Rd & _). exists s', ys. done.
Qed.
(** ... so a replica restored from the latest version of a store, whatever version number it is restored as, reports for the
    same further value sets the same roots as the original. *)
Theorem C66_replica_same_roots (ovf : bool) (ops : list op) st xs (v : version) (root : hash) (evs : list event) rs s (more more' : list op) st' xs' s' ys :
  run H ops = Ok (st, xs) -> let vs := (num_versions ops - 1)%N in num_versions ops <> 0%N -> get_root_hash H (store_reader st) vs = Ok root -> let m := contents_at (history ops) vs in m <> ∅ ->
  deliver_all H ovf (store_reader st) vs m v root evs = Ok (rs, []) -> finish H rs = Ok s ->
  history more = history more' -> run_from H st (num_versions ops) more = Ok (st', xs') -> run_from H s (v + 1) more' = Ok (s', ys) ->
  hash_broken H (root_inputs H m) \/ flat_map out_roots xs' = flat_map out_roots ys.
Proof.
  intros R vs Nv Er m Nm D F Eh Es Ec.
  destruct (C66_restored_store_continues ovf ops st xs vs v root evs rs s more' R (latest_readable ops Nv) Er Nm D F) as [B|(s2 & ys2 & E2 & Er2 & _)]; [by left|right].
  rewrite Ec in E2. injection E2 as <- <-. rewrite Er2, <- Eh.
  assert (Ra : run H (ops ++ more) = Ok (st', xs ++ xs')). { unfold run in *. rewrite run_from_app, R, bind_Ok. rewrite N.add_0_l, Es, bind_Ok. done. }
  pose proof (run_roots H _ _ _ Ra) as G. pose proof (run_roots H _ _ _ R) as G0. rewrite flat_map_app, G0, history_app, app_length, seq_app, map_app in G.
  apply app_inj_1 in G as [_ G]; [|rewrite !map_length; done]. rewrite G. cbn [Nat.add]. 
  apply list_eq. intros i. rewrite !list_lookup_fmap. destruct (decide (i < length (history more))) as [Li|Li].
  - rewrite !lookup_seq_lt by done. cbn [fmap option_fmap option_map]. do 2 f_equal. unfold contents_at, m. rewrite Nat2N.id.
    rewrite take_app_ge by lia. unfold apply_sets. rewrite fold_left_app. unfold vs, contents_at. rewrite (take_ge (history ops)) by (unfold num_versions in *; lia). unfold apply_sets.
    do 2 f_equal. lia.
  - rewrite !lookup_seq_ge by lia. done.
Qed.
(** ... and the proofs that come with further commits verify. *)
Theorem C66_update_proofs (ovf ovf' : bool) (ops : list op) st xs (vs v : version) (root : hash) (evs : list event) rs s (more : list op) s' ys (sets : list value_set) rp b (i : nat) x r pfs :
  run H ops = Ok (st, xs) -> readable ops vs -> get_root_hash H (store_reader st) vs = Ok root -> let m := contents_at (history ops) vs in m <> ∅ ->
  deliver_all H ovf (store_reader st) vs m v root evs = Ok (rs, []) -> finish H rs = Ok s -> run_from H s (v + 1) more = Ok (s', ys) ->
  put_value_sets_with_proof H (store_reader s') sets (v + 1 + num_versions more) = Ok (rp, b) -> sets !! i = Some x -> rp !! i = Some (r, pfs) ->
  hash_broken H (root_inputs H m) \/
  let before := apply_sets m (history more ++ take i sets) in
  r = smt_root H (apply_set before x) /\ verify_update H ovf' pfs (smt_root H before) r x = Ok tt.
Proof.
  intros R L Er m Nm D F E P Es Er'. destruct (restored_based ovf ops st xs vs v root evs rs s R L Er Nm D F) as [B|Bs]; [by left|right].
  destruct (based_run H v m s more Nm Bs) as (s2 & ys2 & E2 & _ & _ & Sv). fold m in Bs. rewrite E in E2. injection E2 as <- <-. cbn zeta in Sv.
  set (hist := hist_of v m ++ history more) in *.
  assert (EL : N.of_nat (length hist) = (v + 1 + num_versions more)%N) by (unfold hist, num_versions; rewrite app_length, hist_of_length; lia).
  assert (Lc : last_contents hist = apply_sets m (history more)).
  { unfold hist, last_contents, apply_sets. rewrite fold_left_app. f_equal. apply (hist_of_last v m). }
  destruct (commit_batchB H v _ _ _ _ _ sets Sv) as (_ & b' & pfss & P1 & P2 & P3 & P4). rewrite EL in P2. rewrite P2 in P. injection P as <- <-.
  pose proof (sb_bmap _ _ _ _ _ _ _ Sv) as Eb. rewrite Eb, Lc in P4.
  rewrite (lookup_zip_with pair) in Er'. apply bind_Some in Er' as (r' & Er' & Ep). apply bind_Some in Ep as (p' & Ep & [= -> ->]).
  pose proof (pfss_update H ovf' sets _ _ P4 i x pfs Es Ep) as V.
  assert (Ex : apply_sets (apply_sets m (history more)) (take (S i) sets) = apply_set (apply_sets m (history more ++ take i sets)) x).
  { rewrite (take_S_r _ _ _ Es). unfold apply_sets. rewrite !fold_left_app. done. }
  assert (Eb4 : apply_sets (apply_sets m (history more)) (take i sets) = apply_sets m (history more ++ take i sets)) by (unfold apply_sets; by rewrite fold_left_app).
  rewrite Ex, Eb4 in V.
  apply list_lookup_fmap_inv in Er' as (z & -> & Ez). pose proof (trn_mapsB H v _ _ _ _ _ sets Sv i z Ez) as [_ Em].
  assert (Rz : ms H [] (a_map (vs_a z)) = smt_root H (apply_set (apply_sets m (history more ++ take i sets)) x)).
  { rewrite Em, ms_nil. f_equal. rewrite <- Ex, <- Lc. unfold contents_at, last_contents, apply_sets. rewrite <- fold_left_app. f_equal.
    rewrite Nat2N.id, take_app_ge by lia. f_equal. f_equal. lia. }
  cbn zeta. rewrite Rz. done.
Qed.
End restored.

(** A concrete case: the demo tree is restored as version 9 (with a crash), then changed, purged and changed again. *)
Definition demo_more : list op := [Commit [ [(K80, None)] ]; Purge 10; CommitP [ [(K00, Some vc)]; [] ] ].
Example demo_more_readable w : readable_after 9 demo_more w <-> (10 <= w <= 12)%N.
Proof. unfold readable_after. assert (E : (fold_left floor_step demo_more (9, 9 + 1)%N).1 = 10%N) by reflexivity. rewrite E. assert (E2 : num_versions demo_more = 3%N) by reflexivity. rewrite E2. lia. Qed.
Definition demo_continued : option (list bytes32 * option bytes32 * option bytes32) :=
  match run toy demo with
  | Ok (st, _) =>
      match deliver_all toy true (store_reader st) 4 demo_map 9 (smt_root toy demo_map) [Deliver 0; Crash; Deliver 1; Deliver 0] with
      | Ok (rs, []) =>
          match finish toy rs with
          | Ok s =>
              match run_from toy s 10 demo_more with
              | Ok (s', ys) =>
                  let root v := match get_root_hash toy (store_reader s') v with Ok r => Some r | _ => None end in
                  Some (flat_map out_roots ys, root 10, root 12)
              | _ => None
              end
          | _ => None
          end
      | _ => None
      end
  | _ => None
  end%N.
Example demo_continues :
  let a := smt_root toy {[ K00 := vb; KC0 := vc ]} in let b := smt_root toy {[ K00 := vc; KC0 := vc ]} in
  bool_decide (demo_continued = Some ([a; b; b], Some a, Some b)) = true.
Proof. vm_compute. reflexivity. Qed.
