(** C92: whatever calls are made on a restore into a store that keeps the contract (C91), whichever writes the store refuses, and wherever the restore is reopened: nothing
    but the expected tree gets into the store. *)
From Coq Require Import Strings.String.
From Verif Require Import Restore.
From Verif Require Import Base Spec SpecOrder SpecRange NodeType ProofDef TreeCache Tree Mock MockSteps MockStepFacts Driver Iterator KeyFacts SmtFacts ProofFacts NodeFacts Canon CanonSib ReadFacts PutFacts KeyOrder OrderFacts ValueFacts StoreFacts DriverFacts ThmProof ThmStore ThmStore2 Demo Toy RangeFacts ThmRange
  RestoreFacts RestoreFacts2 RestoreVerify RestoreTop RestoreRec RestoreDriver RestoreRun ThmRestore ThmCrash ThmPurged ThmOrigin ThmContinue ThmBackend ThmBRestore ThmBOrigin.
From Coq Require Import Lia.
Local Opaque Spec.smt root_inputs ms_in.

Section bcalls.
Context (H : list byte -> bytes32) {T : Type}.
Context (rd : T -> reader) (wnb : T -> gmap nodekey node -> gmap (version * key) (option value) -> outcome T) (held : T -> holding).
(** *** Specification: a client that makes any calls (RestoreDriver.v: call, taken, insert_all, chunk_inputs) *)
(** the store, the restore, the entries the restore holds (of all chunks given to this object, accepted or not, and those found in the store when it was opened), the last key given, and the
    inputs hashed to check the accepted chunks *)
Record bclient : Type := BClient { bc_store : T; bc_obj : rstate; bc_given : gmap key value; bc_last : option key; bc_hashed : list (list byte) }.
(** the entries in a store *)
Definition held_entries (s : T) : gmap key value :=
  list_to_map (omap (fun e : (version * key) * option value => match e.2 with Some x => Some (e.1.2, x) | None => None end) (map_to_list (h_values (held s)))).
Definition bcall (ovf : bool) (v : version) (root : hash) (c : bclient) (e : call) : outcome (bclient * bool) :=
  match e with
  | Add ch p =>
      '(s, rs, err) ← badd_chunk H wnb ovf (bc_store c) (bc_obj c) ch p;
      let t := taken (bc_last c) ch in
      let X := insert_all t (bc_given c) in
      let k := match last t with Some e => Some e.1 | None => bc_last c end in
      Ok (match err with
          | None => (BClient s rs X k (bc_hashed c ++ chunk_inputs H X k p), true)
          | Some _ => (BClient s rs X k (bc_hashed c), false)
          end)
  | Reopen =>
      '(s, rs) ← brestore_new H rd (bc_store c) v root;
      let k := match rd_rightmost (rd s) with Some (_, l) => Some (ln_key l) | None => None end in
      let X := match k with None => ∅ | Some k => filter (fun kx : key * value => key_ltb k kx.1 = false) (held_entries s) end in
      Ok (BClient s rs X k (bc_hashed c), false)
  end.
(** the client after the calls, and whether the last one was an accepted chunk *)
Fixpoint bcalls (ovf : bool) (v : version) (root : hash) (c : bclient) (b : bool) (l : list call) : outcome (bclient * bool) :=
  match l with
  | [] => Ok (c, b)
  | e :: l' => '(c, b) ← bcall ovf v root c e; bcalls ovf v root c b l'
  end.
Definition bclient_run (ovf : bool) (s0 : T) (v : version) (root : hash) (l : list call) : outcome (bclient * bool) :=
  '(s, rs) ← brestore_new H rd s0 v root; bcalls ovf v root (BClient s rs ∅ None []) false l.

(** *** Proof *)
Context (CR : conforms_restore rd wnb held).
Section client.
Context (v : version) (m : gmap key value).
(** the same client with the mock store, as long as no hash is broken *)
Definition likes (c : bclient) (rs : rstate) (Y : gmap key value) : Prop :=
  bc_obj c = bare rs /\ sim held (bc_store c) (rs_store rs) /\ obj H v m rs (bc_given c) Y /\ bc_last c = ln_key <$> rs_prev rs.
Lemma sgood_hist t Y : sgood H v m t Y -> st_history t = hist1 v Y.
Proof using. intros [(-> & _ & ->)|(rs0 & k & _ & _ & V & <- & _)]; [unfold hist1; by rewrite fmap_empty|apply V]. Qed.
Lemma held_hist1 s t Y : sim held s t -> st_history t = hist1 v Y -> held_entries s = Y.
Proof using.
  intros (_ & [_ V] & _) Eh. assert (Q : forall w k x, h_values (held s) !! (w, k) = Some x <-> w = v /\ exists y, Y !! k = Some y /\ x = Some y).
  { intros w k x. rewrite V, Eh. unfold hist1. rewrite lookup_fmap. destruct (Y !! k) as [y|]; cbn [fmap option_fmap option_map].
    - split; [intros (l & [= <-] & Hl); apply elem_of_list_singleton in Hl; injection Hl as -> ->; eauto|]. intros (-> & y' & [= <-] & ->). eexists. split; [done|]. by left.
    - split; [intros (l & E & _); done|]. intros (_ & y & E & _). done. }
  unfold held_entries. match goal with |- list_to_map ?l = Y => set (L := l) end.
  assert (In : forall k x, (k, x) ∈ L <-> Y !! k = Some x).
  { intros k x. unfold L. rewrite elem_of_list_omap. split.
    - intros ([[w k'] [x'|]] & Hin & E); cbn [fst snd] in E; [|done]. injection E as -> ->. apply elem_of_map_to_list, Q in Hin as (_ & y & Ey & [= ->]). done.
    - intros E. exists ((v, k), Some x). split; [|done]. apply elem_of_map_to_list, Q. eauto. }
  assert (ND : forall k x x', (k, x) ∈ L -> (k, x') ∈ L -> x = x') by (intros k x x' E E'; apply In in E, E'; congruence).
  apply map_eq. intros k. apply option_eq. intros x. split.
  - intros E. apply elem_of_list_to_map_2 in E. by apply In.
  - intros E. apply In in E. by apply elem_of_list_to_map_1'; [intros y Hy; by eapply ND|].
Qed.
Lemma bcall_likes ovf c rs Y e c' b : likes c rs Y -> bcall ovf v (smt_root H m) c e = Ok (c', b) ->
  (exists rs' Y', likes c' rs' Y' /\ (b = true -> exists k, bc_last c' = Some k /\ synced H v m rs' (bc_given c') k)) \/ hash_broken H (root_inputs H m ++ bc_hashed c').
Proof using CR.
  intros (Eo & S & O & El) E. destruct e as [ch p|]; cbn [bcall] in E.
  - apply bind_inv' in E as ([[s1 r1] err] & Ea & E). apply Ok_inj in E. destruct (decide (ch = [])) as [->|Nc].
    { cbn [badd_chunk] in Ea. injection Ea as <- <- <-. injection E as <- <-. left. exists rs, Y. split; [|done]. split; [done|]. split; [done|]. split; [exact O|exact El]. }
    assert (Ea' : ('(rs, e) ← push_chunk H (bc_obj c) ch; match e with Some e => Ok (bc_store c, rs, Some e) | None => match rverify H ovf rs p with
        | Ok _ => match wnb (bc_store c) (rs_fnodes rs) (rs_fvalues rs) with Ok s' => Ok (s', RS (rs_store rs) (rs_version rs) (rs_partial rs) ∅ ∅ (rs_prev rs) (rs_num rs) (rs_root rs), None) | Err e => Ok (bc_store c, rs, Some e) | Panic => Panic end
        | Err e => Ok (bc_store c, rs, Some e) | Panic => Panic end end) = Ok (s1, r1, err)) by (unfold badd_chunk in Ea; by destruct ch).
    clear Ea. rewrite Eo in Ea'. unfold bare in Ea'. rewrite push_chunk_on in Ea'. destruct (push_chunk H rs ch) as [[rs1 e1]| |] eqn:Ep; [|done|done]. rewrite !bind_Ok in Ea'. fold (bare rs1) in Ea'.
    destruct (push_obj H v m rs (bc_given c) Y ch (rs1, e1) Nc O Ep) as (R1 & S1 & T1 & O1 & U1 & P1). cbn [fst snd] in *. rewrite <- El in *. set (t := taken (bc_last c) ch) in *.
    assert (Rej : s1 = bc_store c -> r1 = bare rs1 -> err <> None -> exists rs' Y', likes c' rs' Y' /\ (b = true -> exists k, bc_last c' = Some k /\ synced H v m rs' (bc_given c') k)).
    { intros -> -> Ne. destruct err as [err|]; [|done]. injection E as <- <-. exists rs1, Y. split; [|done]. split; [done|]. split; [cbn [bc_store]; by rewrite S1|]. split; [exact O1|]. cbn [bc_last]. symmetry. exact P1. }
    destruct e1 as [e1|]; [injection Ea' as <- <- <-; left; by apply Rej|]. change (rverify H ovf (bare rs1) p) with (rverify H ovf rs1 p) in Ea'.
    destruct (rverify H ovf rs1 p) as [[]|e2|] eqn:Ev; [|injection Ea' as <- <- <-; left; by apply Rej|done].
    change (rs_fnodes (bare rs1)) with (rs_fnodes rs1) in Ea'. change (rs_fvalues (bare rs1)) with (rs_fvalues rs1) in Ea'.
    destruct (wnb (bc_store c) (rs_fnodes rs1) (rs_fvalues rs1)) as [s2|e2|] eqn:W; [|injection Ea' as <- <- <-; left; by apply Rej|done]. injection Ea' as <- <- <-. injection E as <- <-.
    destruct (U1 eq_refl) as (g & Wv & k & X0 & L & V & Ex & Sx & Gu). assert (Er : rs_root rs1 = smt_root H m) by apply O1. destruct (lv_prev _ _ _ _ _ _ L) as (x & Ekx & Epv).
    set (X' := fold_left ins t (bc_given c)) in *.
    destruct (rverify_sound H v ovf g rs1 X' k m p L Er Ev) as [Up|(x' & dd & Ld & Ek' & Br)].
    + left. destruct (flush_used H v m rs1 g Wv X0 X' Y k Er L V Ex Sx Gu Up) as (rs2 & Ef & Sy). rewrite flush_eq in Ef. destruct (write_node_batch (rs_store rs1) (rs_fnodes rs1) (rs_fvalues rs1)) as [t2| |] eqn:Wt; [|done|done]. injection Ef as <-.
      rewrite <- S1 in S. destruct (sim_write rd wnb held CR _ _ _ _ _ S Wt) as [Ws _].
      assert (Pk : ln_key <$> rs_prev rs1 = Some k) by (by rewrite Epv).
      exists (RS t2 (rs_version rs1) (rs_partial rs1) ∅ ∅ (rs_prev rs1) (rs_num rs1) (rs_root rs1)), X'. split; [split; [reflexivity|]; split; [by apply Ws|]; split; [by apply (synced_obj H v m _ _ k)|]|].
      * cbn [bc_last rs_prev]. rewrite Pk. unfold last_key in P1. rewrite <- P1. exact Pk.
      * intros _. exists k. split; [|exact Sy]. cbn [bc_last]. unfold last_key in P1. rewrite <- P1. exact Pk.
    + right. cbn [bc_hashed]. eapply broken_mono; [|exact Br]. intros z Hz. apply elem_of_app in Hz as [Hz|Hz]; [apply elem_of_app; by left|]. apply elem_of_app. right. apply elem_of_app. right.
      unfold last_key in P1. rewrite <- P1, Epv. cbn [fmap option_fmap option_map ln_key chunk_inputs]. change (insert_all t (bc_given c)) with X'. rewrite Ek'.
      apply elem_of_app in Hz as [Hz|Hz]; [apply elem_of_app; by left|]. apply elem_of_app; right. apply elem_of_list_In, in_flat_map. exists dd. split; [apply in_seq; lia|by apply elem_of_list_In].
  - destruct O as (_ & G & _). destruct (reopen_hobj H v m _ _ G) as (rs1 & X1 & E1 & Ho1 & Ea & Ex & Es).
    rewrite (sim_new H rd wnb held CR _ _ v _ rs1 S (sgood_one_leaf H _ _ _ _ G) E1), bind_Ok in E. rewrite (sim_right rd wnb held CR _ _ S (sgood_one_leaf H _ _ _ _ G)) in E. injection E as <- <-. left. exists rs1, Y. split; [|done].
    split; [done|]. cbn [bc_store bc_given bc_last]. rewrite Es. split; [done|]. apply restore_new_prev in E1 as [Pv _]. split; [|rewrite Pv; by destruct (store_rightmost (rs_store rs)) as [[? ?]|]].
    rewrite (held_hist1 _ _ Y S (sgood_hist _ _ G)). match goal with |- obj _ _ _ _ ?G _ => replace G with X1 end; [by apply hobj_obj|]. rewrite Ex. by destruct (store_rightmost (rs_store rs)) as [[nk l]|].
Qed.
Lemma bcall_hashed ovf root c e c' b : bcall ovf v root c e = Ok (c', b) -> exists l, bc_hashed c' = bc_hashed c ++ l.
Proof using.
  clear. intros E. destruct e as [ch p|]; cbn [bcall] in E.
  - apply bind_inv' in E as ([[s1 r1] err] & _ & E). apply Ok_inj in E. destruct err; injection E as <- <-; [|by eexists]. exists []. by rewrite app_nil_r.
  - apply bind_inv' in E as ([s1 r1] & _ & E). injection E as <- <-. exists []. by rewrite app_nil_r.
Qed.
Lemma bcalls_hashed ovf root l : forall c b c' b', bcalls ovf v root c b l = Ok (c', b') -> exists l, bc_hashed c' = bc_hashed c ++ l.
Proof using.
  clear. induction l as [|e l IH]; intros c b c' b' E; cbn [bcalls] in E; [injection E as <- <-; exists []; by rewrite app_nil_r|].
  apply bind_inv' in E as ([c1 b1] & E1 & E). apply bcall_hashed in E1 as [l1 E1]. apply IH in E as [l2 E2]. exists (l1 ++ l2). by rewrite E2, E1, app_assoc.
Qed.
Lemma bcalls_likes ovf l : forall c b rs Y c' b', likes c rs Y -> (b = true -> exists k, bc_last c = Some k /\ synced H v m rs (bc_given c) k) -> bcalls ovf v (smt_root H m) c b l = Ok (c', b') ->
  (exists rs' Y', likes c' rs' Y' /\ (b' = true -> exists k, bc_last c' = Some k /\ synced H v m rs' (bc_given c') k)) \/ hash_broken H (root_inputs H m ++ bc_hashed c').
Proof using CR.
  induction l as [|e l IH]; intros c b rs Y c' b' G S E; cbn [bcalls] in E; [injection E as <- <-; left; by exists rs, Y|].
  apply bind_inv' in E as ([c1 b1] & E1 & E). destruct (bcall_likes ovf c rs Y e c1 b1 G E1) as [(rs1 & Y1 & G1 & S1)|Br]; [by eapply IH|].
  right. apply bcalls_hashed in E as [l2 E2]. eapply broken_mono; [|exact Br]. intros z Hz. apply elem_of_app in Hz as [Hz|Hz]; apply elem_of_app; [by left|right]. rewrite E2. apply elem_of_app. by left.
Qed.
Lemma brun_likes ovf s0 l c b : held s0 = Held ∅ ∅ ∅ -> bclient_run ovf s0 v (smt_root H m) l = Ok (c, b) ->
  (exists rs Y, likes c rs Y /\ (b = true -> exists k, bc_last c = Some k /\ synced H v m rs (bc_given c) k)) \/ hash_broken H (root_inputs H m ++ bc_hashed c).
Proof using CR.
  intros E0 E. unfold bclient_run in E. destruct (start_hobj H v m) as (rs0 & En & Ho & Ep). pose proof (restore_new_store H _ _ _ _ En) as Es0.
  assert (S0 : sim held s0 store_empty). { unfold sim. rewrite E0. split; [done|]. split; [apply vrel_empty|]. done. }
  assert (O0 : one_leaf store_empty) by (intros nk nk' l1 l' Z; discriminate Z). rewrite (sim_new H rd wnb held CR s0 store_empty v _ rs0 S0 O0 En), bind_Ok in E.
  eapply (bcalls_likes ovf l _ false rs0 ∅); [|intros Z; discriminate Z|exact E]. split; [done|]. cbn [bc_store bc_given bc_last]. rewrite Es0, Ep. split; [done|]. split; [by apply hobj_obj|done].
Qed.
End client.

(** *** C92 *)
(** When a chunk is accepted, the entries given so far are those of the expected tree up to its last key. *)
Theorem C92_accepted_sound ovf (m : gmap key value) s0 v calls c : held s0 = Held ∅ ∅ ∅ -> bclient_run ovf s0 v (smt_root H m) calls = Ok (c, true) ->
  (exists k, bc_last c = Some k /\ is_Some (m !! k) /\ forall k', bc_given c !! k' = if decide (key_le k' k) then m !! k' else None) \/ hash_broken H (root_inputs H m ++ bc_hashed c).
Proof using CR.
  intros E0 E. destruct (brun_likes v m ovf s0 calls c true E0 E) as [(rs & Y & _ & S)|B]; [left|by right]. destruct (S eq_refl) as (k & El & (_ & L & _ & _ & Up)). exists k. split; [done|]. split; [|done].
  destruct (lv_prev _ _ _ _ _ _ L) as (x & Ex & _). exists x. rewrite Up in Ex. by rewrite decide_True in Ex by (by left).
Qed.
(** Nothing but the values of the expected tree ever gets into the store ... *)
Theorem C92_store_sound ovf (m : gmap key value) s0 v calls c b : held s0 = Held ∅ ∅ ∅ -> bclient_run ovf s0 v (smt_root H m) calls = Ok (c, b) ->
  (forall k w x, rd_value (rd (bc_store c)) w k = Some x -> m !! k = Some x) \/ hash_broken H (root_inputs H m ++ bc_hashed c).
Proof using CR.
  intros E0 E. destruct (brun_likes v m ovf s0 calls c b E0 E) as [(rs & Y & (_ & Sm & O & _) & _)|B]; [left|by right]. intros k w x Ex. rewrite (sim_value rd wnb held CR _ _ w k Sm) in Ex.
  destruct O as (_ & G & _). rewrite (hist1_value v _ Y k w (sgood_hist v m _ _ G)) in Ex. destruct (v <=? w)%N; [|done]. destruct G as [(-> & _)|(rs0 & k0 & _ & _ & _ & _ & Up)]; [discriminate Ex|]. rewrite Up in Ex. by destruct (decide (key_le k k0)).
Qed.
(** ... and if the last chunk is accepted and ends with the greatest key of the tree, [finish] leaves the expected tree: all queries at version [v] answer with it. *)
Theorem C92_finish_sound ovf (m : gmap key value) s0 v calls c k s : held s0 = Held ∅ ∅ ∅ -> bclient_run ovf s0 v (smt_root H m) calls = Ok (c, true) -> bc_last c = Some k ->
  (forall k', is_Some (m !! k') -> key_le k' k) -> bfinish H wnb (bc_store c) (bc_obj c) = Ok s ->
  reader_reads_as H (rd s) v m \/ hash_broken H (root_inputs H m ++ bc_hashed c).
Proof using CR.
  intros E0 E El Mx F. destruct (brun_likes v m ovf s0 calls c true E0 E) as [(rs & Y & (Eo & Sm & _) & S)|B]; [left|by right]. destruct (S eq_refl) as (k0 & El0 & (_ & L & Fn & V & Up)). rewrite El in El0. injection El0 as <-.
  assert (Eg : bc_given c = m). { apply map_eq. intros k'. rewrite Up. destruct (decide (key_le k' k)) as [Le|Nl]; [done|]. destruct (m !! k') as [x|] eqn:Ex; [|done]. exfalso. apply Nl, Mx. eauto. }
  rewrite Eg in L, V. destruct (finish_ok H v rs m ∅ m k L V) as (t & Ef & Cm & Eh); [done|]. rewrite (left_id_L ∅ (∪)) in Eh. rewrite Eo in F. destruct (sim_finish H rd wnb held CR _ rs t Sm Ef) as [S1 _]. pose proof (S1 _ F) as S2.
  assert (Nx : H <$> m <> ∅). { destruct (lv_prev _ _ _ _ _ _ L) as (y & Ey & _). intros Z. apply fmap_empty_inv in Z. rewrite Z in Ey. discriminate Ey. }
  pose proof (complete_stored H v t _ Nx Cm) as St. apply view_reader. exists (fun _ => v). split; [|split].
  - destruct St as [St1 St2]. split.
    + rewrite (cr_node rd wnb held CR), (proj1 S2). exact St1.
    + intros p Hp i Hi. rewrite (cr_node rd wnb held CR), (proj1 S2). by apply St2.
  - intros p i k' y _ Ek. rewrite (sim_value rd wnb held CR _ _ _ _ S2), (hist1_value v t m k' v Eh). rewrite N.leb_refl. assert (Z : U (p ++ [i]) m !! k' = Some y) by (rewrite Ek; apply lookup_singleton). by apply U_lookup in Z as [? _].
  - intros k'. rewrite (sim_value rd wnb held CR _ _ _ _ S2), (hist1_value v t m k' v Eh). by rewrite N.leb_refl.
Qed.
End bcalls.

(** The theorems apply: two entries that are not in the tree (rejected), the restore opened again, the first two entries (accepted), again a reopening (after which the second entry is needed again), and the last two (accepted); then [finish]. *)
Definition demo_attempts (p1 p2 : range_proof) : list call :=
  [Add [(K00, va); (K80, va)] (RangeProof []); Reopen; Add [(K00, vb); (K80, va)] p1; Reopen; Add [(K80, va); (KC0, vc)] p2].
Theorem demo_calls : let e := Held ∅ ∅ ∅ in exists p1 p2 c s,
  bclient_run toy ark_reader ark_wnb id true e 9 (smt_root toy demo_map) (demo_attempts p1 p2) = Ok (c, true) /\ bc_last c = Some KC0 /\
  bc_given c = demo_map /\ bfinish toy ark_wnb (bc_store c) (bc_obj c) = Ok s /\ get_root_hash toy (ark_reader s) 9 = Ok (smt_root toy demo_map).
Proof.
  intros e.
  assert (E : match run toy demo with
    | Ok (st, _) => match get_range_proof toy (store_reader st) K80 4, get_range_proof toy (store_reader st) KC0 4 with
      | Ok p1, Ok p2 => match bclient_run toy ark_reader ark_wnb id true e 9 (smt_root toy demo_map) (demo_attempts p1 p2) with
        | Ok (c, true) => match bfinish toy ark_wnb (bc_store c) (bc_obj c) with
          | Ok s => match get_root_hash toy (ark_reader s) 9 with Ok r => bool_decide (bc_last c = Some KC0) && bool_decide (bc_given c = demo_map) && bool_decide (r = smt_root toy demo_map) | _ => false end
          | _ => false end
        | _ => false end
      | _, _ => false end
    | _ => false end = true) by (vm_compute; reflexivity).
  destruct (run toy demo) as [[st xs]| |]; [|discriminate E|discriminate E]. destruct (get_range_proof toy (store_reader st) K80 4) as [p1| |]; [|discriminate E|discriminate E].
  destruct (get_range_proof toy (store_reader st) KC0 4) as [p2| |]; [|discriminate E|discriminate E]. exists p1, p2.
  destruct (bclient_run toy ark_reader ark_wnb id true e 9 (smt_root toy demo_map) (demo_attempts p1 p2)) as [[c []]| |]; [|discriminate E|discriminate E|discriminate E]. exists c.
  destruct (bfinish toy ark_wnb (bc_store c) (bc_obj c)) as [s| |]; [|discriminate E|discriminate E]. exists s. destruct (get_root_hash toy (ark_reader s) 9) as [r| |]; [|discriminate E|discriminate E].
  apply andb_true_iff in E as [E E3]. apply andb_true_iff in E as [E1 E2]. apply bool_decide_eq_true_1 in E1, E2, E3. rewrite E3. split; [reflexivity|]. split; [exact E1|]. split; [exact E2|]. split; reflexivity.
Qed.
