(** C88: replication end to end.  The chunks and their proofs come from a store that is being written to and purged meanwhile; the receiver may
    crash at any time and resumes from what its own store holds. *)
From Coq Require Import Strings.String.
From Verif Require BatchTop.
From Verif Require Import Base Spec SpecOrder SpecRange NodeType ProofDef TreeCache Tree BatchTree Mock Driver Iterator Exclusion Restore KeyFacts SmtFacts ProofFacts NodeFacts Canon CanonSib ReadFacts PutFacts InsertFacts PutTop VersionFacts ValueFacts StoreFacts DriverFacts DriverFacts2 LeafVersion KeyOrder OrderFacts IterFacts ExclFacts ThmProof ThmStore ThmStore2 ThmRange ThmIter ThmExcl Demo Toy
  RangeFacts RestoreFacts RestoreFacts2 RestoreVerify RestoreTop RestoreRec RestoreDriver RestoreRun ThmRestore ThmCrash ThmConc ThmContinue FirstFacts ThmFirst ThmSame ThmBatch ThmOrigin.
From Coq Require Import Lia.
Local Opaque Spec.smt root_inputs ms_in.

(** *** The receiver *)
(** the items that an iterator gives, up to [length rds] of them, each read through the next reader of [rds] *)
Fixpoint pull (rds : list reader) (it : jmt_iter) : outcome (list (key * value)) :=
  match rds with
  | [] => Ok []
  | rd :: rds' => '(x, it') ← iter_next rd it; match x with None => Ok [] | Some kv => l ← pull rds' it'; Ok (kv :: l) end
  end.
(** the entries after the key [last], or from the first one: those that an iterator from there gives, without the entry of [last] itself *)
Definition next_chunk (rd : reader) (rds : list reader) (vs : version) (last : option key) : outcome (list (key * value)) :=
  it ← match last with None => iter_new_by_index rd vs 0 | Some k => iter_new rd vs k end;
  l ← pull rds it;
  Ok (match last with None => l | Some k => filter (fun e => key_ltb k e.1 = true) l end).
(** The events.  [Fetch rd rds rd']: an iterator is opened through [rd], an item is taken through each of [rds], and the range proof of the last one is requested through [rd']: the source
    may be written to and purged between any two of these.  [Die]: the receiver dies, and reopens the restore on its own store. *)
Inductive live : Type := Fetch (rd : reader) (rds : list reader) (rd' : reader) | Die.
Definition readers (e : live) : list reader := match e with Fetch rd rds rd' => rd :: rd' :: rds | Die => [] end.
Section live.
Context (H : list byte -> bytes32) (ovf : bool).
(** [pos]: the last key delivered *)
Fixpoint receive (vs v : version) (root : hash) (evs : list live) (rs : rstate) (pos : option key) : outcome (rstate * option key) :=
  match evs with
  | [] => Ok (rs, pos)
  | Fetch rd rds rd' :: evs' =>
      ch ← next_chunk rd rds vs pos;
      match last ch with
      | None => receive vs v root evs' rs pos
      | Some (k, _) =>
          p ← get_range_proof H rd' k vs;
          '(rs, e) ← add_chunk H ovf rs ch p;
          match e with Some e => Err e | None => receive vs v root evs' rs (Some k) end
      end
  | Die :: evs' =>
      rs' ← restore_new H (rs_store rs) v root;
      receive vs v root evs' rs' (match store_rightmost (rs_store rs) with Some (_, l) => Some (ln_key l) | None => None end)
  end.
Definition receive_all (vs v : version) (root : hash) (evs : list live) : outcome (rstate * option key) :=
  rs ← restore_new H store_empty v root; receive vs v root evs rs None.

(** *** Proof *)
Definition after (pos : option key) (m : gmap key value) : list (key * value) :=
  match pos with None => entries m | Some k => filter (fun e => key_ltb k e.1 = true) (entries m) end.
Lemma pull_rest ver vs m rds : Forall (fun rd => vview H ver rd vs m) rds -> forall it l, it_rest H m ver vs it l -> pull rds it = Ok (take (length rds) l).
Proof.
  induction 1 as [|rd rds (St & Hv & Hk) _ IH]; intros it l R; cbn [pull length]; [by rewrite take_0|].
  assert (Hv0 : forall k x, m = {[ k := x ]} -> rd_value rd vs k = Some x) by (intros k x ->; rewrite Hk; apply lookup_singleton).
  pose proof (iter_next_ok H m ver rd vs St Hv Hv0 it _ R) as E. destruct l as [|kx l]; [rewrite E, bind_Ok; reflexivity|].
  destruct E as (it' & E & R'). rewrite E, bind_Ok. cbn beta iota. rewrite (IH it' l R'), bind_Ok. reflexivity.
Qed.
Lemma filter_all {A} (P : A -> Prop) `{forall x, Decision (P x)} l : Forall P l -> filter P l = l.
Proof. induction 1 as [|x l Hx _ IH]; [done|]. rewrite filter_cons. destruct (decide (P x)); [by rewrite IH|done]. Qed.
Lemma from_after k m : exists l0, entries_from k m = l0 ++ after (Some k) m /\ Forall (fun e => e.1 = k) l0 /\ length l0 <= 1 /\ Forall (fun e => key_ltb k e.1 = true) (after (Some k) m).
Proof.
  assert (Fa : Forall (fun e => key_ltb k e.1 = true) (after (Some k) m)) by (apply Forall_forall; intros e He; apply elem_of_list_filter in He as [He _]; exact He).
  cut (exists l0, entries_from k m = l0 ++ after (Some k) m /\ Forall (fun e => e.1 = k) l0 /\ length l0 <= 1); [intros (l0 & A & B & C); exists l0; auto|]. clear Fa.
  unfold entries_from, after. pose proof (entries_sorted m) as So. induction So as [|[k1 x1] l So IH F]; [exists []; split; [done|]; split; [constructor|cbn; lia]|].
  rewrite !filter_cons. cbn [fst]. assert (G : forall j, key_le k j -> Forall (elt (j, x1)) l -> filter (fun e => key_ltb e.1 k = false) l = filter (fun e => key_ltb k e.1 = true) l).
  { intros j Lj Fj. assert (Q : Forall (fun e => key_lt k e.1) l). { eapply Forall_impl; [exact Fj|]. intros e He. unfold elt in He. cbn [fst] in He. destruct Lj as [->|Lj]; [done|by eapply key_lt_trans]. }
    rewrite !filter_all; [done| |]; (eapply Forall_impl; [exact Q|]); intros e He; cbn beta; [by apply key_ltb_lt|]. apply key_ltb_ge. by right. }
  destruct (key_lt_total k1 k) as [L|[->|L]].
  - destruct (decide (key_ltb k1 k = false)) as [D|_]; [apply key_ltb_ge in D; apply key_lt_not_le in L; done|].
    destruct (decide (key_ltb k k1 = true)) as [D|_]; [apply key_ltb_lt in D; exfalso; by apply (key_lt_irrefl k), (key_lt_trans _ k1)|]. exact IH.
  - destruct (decide (key_ltb k k = false)) as [_|D]; [|exfalso; apply D, key_ltb_ge; by left].
    destruct (decide (key_ltb k k = true)) as [D|_]; [apply key_ltb_lt, key_lt_irrefl in D; done|].
    exists [(k, x1)]. split; [cbn [app]; f_equal; apply (G k); [by left|exact F]|]. split; [by constructor|cbn [length]; lia].
  - destruct (decide (key_ltb k1 k = false)) as [_|D]; [|exfalso; apply D, key_ltb_ge; by right].
    destruct (decide (key_ltb k k1 = true)) as [_|D]; [|exfalso; by apply D, key_ltb_lt].
    exists []. split; [cbn [app]; f_equal; apply (G k1); [by right|exact F]|]. split; [by constructor|cbn [length]; lia].
Qed.
Lemma after_sorted pos m : StronglySorted elt (after pos m).
Proof. destruct pos as [k|]; [apply filter_sorted|]; apply entries_sorted. Qed.
Lemma after_drop pos m j k x : last (take j (after pos m)) = Some (k, x) -> drop j (after pos m) = after (Some k) m.
Proof.
  intros E. set (c := take j (after pos m)) in *. set (d := drop j (after pos m)). assert (Ecd : after pos m = c ++ d) by (symmetry; apply take_drop).
  pose proof (after_sorted pos m) as So. rewrite Ecd in So. apply sorted_app_inv in So as (Sc & Sd & Cd).
  assert (Hk : (k, x) ∈ c) by (by apply last_Some_elem_of). assert (Lc : forall e, e ∈ c -> key_le e.1 k).
  { intros e He. apply last_Some in E as [l' El]. rewrite El in Sc, He. apply elem_of_app in He as [He|He]; [|apply elem_of_list_singleton in He as ->; by left].
    apply sorted_app_inv in Sc as (_ & _ & Q). right. apply (Q e (k, x)); [done|by left]. }
  assert (G : forall e, key_ltb k e.1 = true -> e ∈ entries m -> e ∈ after pos m).
  { intros e Le He. destruct pos as [k0|]; [|exact He]. apply elem_of_list_filter. split; [|done]. apply key_ltb_lt. apply key_ltb_lt in Le. eapply key_lt_trans; [|exact Le].
    assert (Z : (k, x) ∈ after (Some k0) m) by (rewrite Ecd; apply elem_of_app; by left). apply elem_of_list_filter in Z as [Z _]. by apply key_ltb_lt in Z. }
  assert (G' : forall e, e ∈ after pos m -> e ∈ entries m) by (intros e He; destruct pos; [by apply elem_of_list_filter in He as [_ ?]|done]).
  apply elt_unique; [done|apply after_sorted|]. intros e. cbn [after]. rewrite elem_of_list_filter. split.
  - intros He. split; [apply key_ltb_lt, (Cd (k, x) e); done|]. apply G'. rewrite Ecd. apply elem_of_app. by right.
  - intros [Le He]. apply (G e Le) in He. rewrite Ecd in He. apply elem_of_app in He as [He|He]; [|done]. apply Lc in He. apply key_ltb_lt, key_lt_not_le in Le. done.
Qed.
Lemma chunk_ok ver vs m rd rds pos : vview H ver rd vs m -> Forall (fun rd => vview H ver rd vs m) rds ->
  exists j, length rds <= S j /\ next_chunk rd rds vs pos = Ok (take j (after pos m)).
Proof.
  intros (St & Hv & Hk) F. unfold next_chunk. destruct pos as [k|].
  - destruct (iter_new_ok H m ver rd vs St k) as (it & E & R). rewrite E, bind_Ok, (pull_rest ver vs m rds F _ _ R), bind_Ok.
    destruct (from_after k m) as (l0 & El & F0 & L0 & Fa). unfold from. unfold entries_from in El. rewrite El. exists (length rds - length l0). split; [lia|]. f_equal.
    assert (Et : take (length rds) (l0 ++ after (Some k) m) = take (length rds) l0 ++ take (length rds - length l0) (after (Some k) m)) by apply firstn_app. rewrite Et, filter_app, (filter_all _ (take (length rds - length l0) _)) by (by apply Forall_take).
    assert (Q : forall l : list (key * value), Forall (fun e => e.1 = k) l -> filter (fun e => key_ltb k e.1 = true) l = []).
    { clear. intros l Fl. induction Fl as [|e l He Fl IH]; [reflexivity|]. rewrite filter_cons. destruct (decide (key_ltb k e.1 = true)) as [D|_]; [|exact IH]. rewrite He in D. by apply key_ltb_lt, key_lt_irrefl in D. }
    rewrite Q by (by apply Forall_take). reflexivity.
  - destruct (iter_new_by_index_ok H m ver rd vs St 0) as (it & E & R). rewrite drop_0 in R. rewrite E, bind_Ok, (pull_rest ver vs m rds F _ _ R), bind_Ok.
    exists (length rds). split; [lia|]. reflexivity.
Qed.
Definition serves (ver : list nibble -> version) (vs : version) (m : gmap key value) (e : live) : Prop := Forall (fun rd => vview H ver rd vs m) (readers e).
(** [receive] does what the client of RestoreDriver does for some list of events *)
Lemma receive_deliver ver src vs m v root evs : view H src vs m -> Forall (serves ver vs m) evs -> forall rs pos, exists evs',
  match deliver H ovf src vs m v root evs' rs (after pos m) with
  | Ok (rs', rest) => exists pos', receive vs v root evs rs pos = Ok (rs', pos') /\ rest = after pos' m
  | Err e => receive vs v root evs rs pos = Err e
  | Panic => receive vs v root evs rs pos = Panic
  end.
Proof.
  intros Vs. induction 1 as [|[rd rds rd'|] evs Se _ IH]; intros rs pos.
  - exists []. cbn [deliver]. exists pos. split; reflexivity.
  - apply Forall_cons_1 in Se as [V Se]. apply Forall_cons_1 in Se as [V' F]. destruct (chunk_ok ver vs m rd rds pos V F) as (j & _ & E). cbn [receive]. rewrite E, bind_Ok.
    assert (P : forall k, get_range_proof H rd' k vs = get_range_proof H src k vs) by (apply (view_same H rd' vs src vs m); [by exists ver|done]).
    destruct (last (take j (after pos m))) as [[k x]|] eqn:El.
    + assert (j = j - 1 + 1) as Ej by (destruct j; [done|lia]). rewrite P.
      destruct (get_range_proof H src k vs) as [p|e|] eqn:Ep.
      * destruct (add_chunk H ovf rs (take j (after pos m)) p) as [[rs1 [e|]]|e|] eqn:Ea.
        -- exists [Deliver (j - 1)]. cbn [deliver]. rewrite <- Ej, El, Ep, !bind_Ok, Ea, !bind_Ok. reflexivity.
        -- destruct (IH rs1 (Some k)) as (evs' & Q). exists (Deliver (j - 1) :: evs'). cbn [deliver]. rewrite <- Ej, El, Ep, !bind_Ok, Ea, !bind_Ok, (after_drop _ _ _ _ _ El). exact Q.
        -- exists [Deliver (j - 1)]. cbn [deliver]. rewrite <- Ej, El, Ep, !bind_Ok, Ea. reflexivity.
        -- exists [Deliver (j - 1)]. cbn [deliver]. rewrite <- Ej, El, Ep, !bind_Ok, Ea. reflexivity.
      * exists [Deliver (j - 1)]. cbn [deliver]. rewrite <- Ej, El, Ep. reflexivity.
      * exists [Deliver (j - 1)]. cbn [deliver]. rewrite <- Ej, El, Ep. reflexivity.
    + destruct (IH rs pos) as (evs' & Q). exists evs'. exact Q.
  - cbn [receive]. destruct (restore_new H (rs_store rs) v root) as [rs'|e|] eqn:E.
    + rewrite bind_Ok. destruct (IH rs' (match store_rightmost (rs_store rs) with Some (_, l) => Some (ln_key l) | None => None end)) as (evs' & Q). exists (Crash :: evs'). cbn [deliver]. rewrite E, bind_Ok.
      assert (Ea : above_rightmost (rs_store rs) m = after (match store_rightmost (rs_store rs) with Some (_, l) => Some (ln_key l) | None => None end) m) by (unfold above_rightmost, after; destruct (store_rightmost (rs_store rs)) as [[? l]|]; reflexivity).
      rewrite Ea. exact Q.
    + exists [Crash]. cbn [deliver]. rewrite E. reflexivity.
    + exists [Crash]. cbn [deliver]. rewrite E. reflexivity.
Qed.
Lemma reads_along_vview n f c s w : in_use H n f c s -> (f <= w)%N -> (w < n)%N -> exists ver, forall rd, reads_along H n f s w rd -> vview H ver rd w (c w).
Proof.
  intros U L1 L2. destruct (passes_from_view H n f c s w U L1 L2) as (ver & V). exists ver. intros rd [Cn Cv]. split; [split|split].
  - destruct (Cn (w, [])) as (s' & Ps & ->). by destruct (V s' Ps) as [[? _] _].
  - intros p Hp i Ne. destruct (Cn (ver (p ++ [i]), p ++ [i])) as (s' & Ps & ->). destruct (V s' Ps) as [[_ K] _]. by apply K.
  - intros p i k y Mn E. destruct (Cv (ver (p ++ [i])) k) as (s' & Ps & ->). destruct (V s' Ps) as (_ & K & _). by eapply K.
  - intros k. destruct (Cv w k) as (s' & Ps & ->). destruct (V s' Ps) as (_ & _ & K). apply K.
Qed.
(** every reader of the events may see, at each request, any of the states that the source passes through *)
Definition from_source (n f : version) (src : store) (vs : version) (evs : list live) : Prop := Forall (fun e => Forall (reads_along H n f src vs) (readers e)) evs.
(** all keys of [m] are delivered *)
Definition delivered (m : gmap key value) (pos : option key) : Prop := forall k, is_Some (m !! k) -> exists k0, pos = Some k0 /\ key_le k k0.
Lemma delivered_after m pos : delivered m pos <-> after pos m = [].
Proof.
  split.
  - intros D. apply elem_of_nil_inv. intros [k x] E. destruct pos as [k0|]; cbn [after] in E.
    + apply elem_of_list_filter in E as [L E]. apply entries_elem in E. destruct (D k) as (k1 & [= <-] & L'); [by exists x|]. apply key_ltb_lt, key_lt_not_le in L. done.
    + apply entries_elem in E. destruct (D k) as (k1 & [=] & _). by exists x.
  - intros E k [x Ek]. apply entries_elem in Ek. destruct pos as [k0|]; cbn [after] in E; [|rewrite E in Ek; by apply elem_of_nil in Ek].
    exists k0. split; [done|]. destruct (key_lt_total k k0) as [L|[->|L]]; [by right|by left|]. exfalso.
    assert (Z : (k, x) ∈ filter (fun e : key * value => key_ltb k0 e.1 = true) (entries m)) by (apply elem_of_list_filter; split; [by apply key_ltb_lt|done]). rewrite E in Z. by apply elem_of_nil in Z.
Qed.
Section source.
Context (n f : version) (c : version -> gmap key value) (src : store) (vs v : version) (root : hash) (rd0 : reader) (U : in_use H n f c src) (L1 : (f <= vs)%N) (L2 : (vs < n)%N) (Ne : c vs <> ∅) (NB : ~ hash_broken H (root_inputs H (c vs)))
  (A0 : reads_along H n f src vs rd0) (Er : get_root_hash H rd0 vs = Ok root).
Lemma source_root : get_root_hash H (store_reader src) vs = Ok root.
Proof. rewrite <- Er. destruct (C82_concurrent H n f c src vs rd0 U L1 L2 A0) as [_ (_ & _ & E & _)]. by symmetry. Qed.
Lemma source_deliver evs : exists rs rest, deliver_all H ovf (store_reader src) vs (c vs) v root evs = Ok (rs, rest) /\ (rest = [] -> exists s, finish H rs = Ok s).
Proof.
  pose proof source_root as Er'. destruct (okay_source H ovf _ _ _ _ _ v evs (in_use_okay H _ _ _ _ U) L1 L2) as (st & xs & R & (_ & _ & Eroot & _) & E). rewrite Eroot in Er'. rewrite E.
  pose proof (C33_C34_restore H ovf (at_once (c vs)) st xs 0%N v root evs R (at_once_readable _) Er') as Q. cbn zeta in Q. rewrite at_once_contents in Q.
  destruct (Q Ne) as [|(rs & rest & D & F)]; [done|]. exists rs, rest. split; [exact D|]. intros Hr. destruct (F Hr) as (s & Fs & _). by exists s.
Qed.
Lemma receive_source evs : from_source n f src vs evs -> exists rs pos evs', receive_all vs v root evs = Ok (rs, pos) /\
  deliver_all H ovf (store_reader src) vs (c vs) v root evs' = Ok (rs, after pos (c vs)).
Proof.
  intros Fs. destruct (reads_along_vview n f c src vs U L1 L2) as (ver & V).
  assert (Fe : Forall (serves ver vs (c vs)) evs). { eapply Forall_impl; [exact Fs|]. intros e He. eapply Forall_impl; [exact He|]. exact V. }
  pose proof (okay_view H _ _ _ _ _ (in_use_okay H _ _ _ _ U) L1 L2) as Vs.
  unfold receive_all. destruct (source_deliver []) as (rs0 & rest0 & D0 & _). unfold deliver_all in D0. destruct (restore_new H store_empty v root) as [rs1|e|] eqn:E0; [|done|done]. rewrite !bind_Ok.
  destruct (receive_deliver ver _ vs (c vs) v root evs Vs Fe rs1 None) as (evs' & Q). destruct (source_deliver evs') as (rs2 & rest2 & D2 & _). pose proof D2 as D2'. unfold deliver_all in D2. rewrite E0, bind_Ok in D2. cbn [after] in Q.
  rewrite D2 in Q. destruct Q as (pos' & Q & Erest). exists rs2, pos', evs'. split; [exact Q|]. rewrite <- Erest. exact D2'.
Qed.

(** *** C88 *)
(** Whatever is written to the source and purged from it meanwhile, and whenever the receiver dies: every chunk is accepted, and once the last key is delivered the restore can be finished; the store
    then has the contents of the source version, and is as good as any other (C82). *)
Theorem C88_replicates evs : from_source n f src vs evs -> exists rs pos, receive_all vs v root evs = Ok (rs, pos) /\
  (delivered (c vs) pos -> exists s, finish H rs = Ok s /\ in_use H (v + 1) v (fun _ => c vs) s /\ same_answers H (store_reader s) v rd0 vs).
Proof.
  intros Fs. destruct (receive_source evs Fs) as (rs & pos & evs' & E & D). exists rs, pos. split; [exact E|]. intros Dl. apply delivered_after in Dl. rewrite Dl in D.
  destruct (source_deliver evs') as (rs' & rest' & D' & F). rewrite D in D'. injection D' as <- <-. destruct (F eq_refl) as (s & Fi). exists s. split; [exact Fi|].
  assert (Us : in_use H (v + 1) v (fun _ => c vs) s) by (eapply (in_use_restored H n f c src); [exact U|exact L1|exact L2|exact Ne|exact NB|exact source_root|exact D|exact Fi]). split; [exact Us|].
  eapply view_same; [eapply (okay_view H _ _ _ s v (in_use_okay H _ _ _ _ Us)); lia|]. eapply reads_along_view; [exact U|exact L1|exact L2|exact A0].
Qed.
(** ... and fetching one item more than there are entries delivers the last key. *)
Theorem C88_completes evs rd rds rd' : from_source n f src vs (evs ++ [Fetch rd rds rd']) -> size (c vs) < length rds -> exists rs pos, receive_all vs v root (evs ++ [Fetch rd rds rd']) = Ok (rs, pos) /\ delivered (c vs) pos.
Proof.
  intros Fs Ls. pose proof Fs as Fs'. apply Forall_app in Fs' as [F1 F2]. destruct (receive_source _ Fs) as (rs & pos & evs' & E & _). exists rs, pos. split; [exact E|].
  apply Forall_cons_1 in F2 as [F2 _]. cbn [readers] in F2. apply Forall_cons_1 in F2 as [A F2]. apply Forall_cons_1 in F2 as [A' F2].
  destruct (reads_along_vview n f c src vs U L1 L2) as (ver & V).
  assert (Ap : forall l1 l2 rs1 pos1, receive vs v root (l1 ++ l2) rs1 pos1 = ('(rs2, pos2) ← receive vs v root l1 rs1 pos1; receive vs v root l2 rs2 pos2)).
  { clear. induction l1 as [|[rd rds rd'|] l1 IH]; intros l2 rs1 pos1; cbn [app receive]; [done| |].
    - destruct (next_chunk rd rds vs pos1) as [ch| |]; [rewrite !bind_Ok|done|done]. destruct (last ch) as [[k x]|]; [|apply IH]. destruct (get_range_proof H rd' k vs) as [p| |]; [rewrite !bind_Ok|done|done].
      destruct (add_chunk H ovf rs1 ch p) as [[rs' [e|]]| |]; [done| |done|done]. rewrite !bind_Ok. apply IH.
    - destruct (restore_new H (rs_store rs1) v root) as [rs'| |]; [rewrite !bind_Ok; apply IH|done|done]. }
  unfold receive_all in E. destruct (restore_new H store_empty v root) as [rs1| |]; [|done|done]. rewrite bind_Ok in E. rewrite Ap in E.
  destruct (receive vs v root evs rs1 None) as [[rs2 pos2]| |] eqn:E2; [|done|done]. rewrite bind_Ok in E. cbn [receive] in E.
  destruct (chunk_ok ver vs (c vs) rd rds pos2 (V _ A)) as (j & Lj & Ec); [eapply Forall_impl; [exact F2|exact V]|]. rewrite Ec, bind_Ok in E.
  assert (Ll : length (after pos2 (c vs)) <= size (c vs)).
  { assert (Q : length (entries (c vs)) = size (c vs)) by (unfold entries; rewrite (Permutation_length (merge_sort_Permutation _ _)); reflexivity).
    rewrite <- Q. destruct pos2; cbn [after]; [|lia]. apply filter_length. }
  apply delivered_after. destruct (last (take j (after pos2 (c vs)))) as [[k x]|] eqn:El.
  - apply bind_ok in E as (p & _ & E). apply bind_ok in E as ([rs3 [e|]] & _ & E); [done|]. injection E as _ <-. rewrite <- (after_drop _ _ _ _ _ El). apply drop_ge. lia.
  - injection E as _ <-. apply last_None in El. rewrite take_ge in El by lia. exact El.
Qed.
End source.
End live.

(** *** A concrete case: while version 4 of the demo tree is copied, its source drops a key in version 5 and is purged up to version 4; the receiver dies after the first chunk. *)
Theorem demo_live : exists st xs s1 y1 rs pos s, run toy demo = Ok (st, xs) /\ run_from toy st 5 [Commit [[(K00, None)]]; Purge 4] = Ok (s1, y1) /\
  let r := store_reader st in let r1 := store_reader s1 in
  let evs := [Fetch r [r] r1; Die; Fetch r [r; r1] r1] ++ [Fetch r1 [r; r1; r1; r1] r1] in
  from_source toy 5 2 st 4 evs /\ receive_all toy true 4 9 (smt_root toy demo_map) evs = Ok (rs, pos) /\ delivered demo_map pos /\
  finish toy rs = Ok s /\ in_use toy 10 9 (fun _ => demo_map) s /\ same_answers toy (store_reader s) 9 r 4 /\ same_answers toy (store_reader s) 9 r1 4.
Proof.
  destruct (C82_goes_on toy 0 0 _ _ demo (in_use_empty toy)) as (st & xs & R & U). assert (E5 : (0 + num_versions demo)%N = 5%N) by reflexivity. assert (Ef : (fold_left floor_step demo (0, 0)%N).1 = 2%N) by reflexivity. rewrite E5, Ef in U.
  set (c := later 0 (fun _ => ∅) demo) in *. assert (Ec : c 4%N = demo_map) by (apply (bool_decide_eq_true_1 _); vm_compute; reflexivity).
  destruct (C82_goes_on toy 5 2 c st [Commit [[(K00, None)]]; Purge 4] U) as (s1 & y1 & R1 & _).
  assert (A0 : reads_along toy 5 2 st 4 (store_reader st)).
  { assert (P : passes_from toy 5 2 st 4 st) by (apply (pf_between toy 5 2 st 4 [] st []); [reflexivity|cbn; lia]). split; intros; exists st; split; [exact P|reflexivity|exact P|reflexivity]. }
  assert (A1 : reads_along toy 5 2 st 4 (store_reader s1)).
  { assert (P : passes_from toy 5 2 st 4 s1) by (apply (pf_between toy 5 2 st 4 _ s1 _ R1); cbn; lia). split; intros; exists s1; split; [exact P|reflexivity|exact P|reflexivity]. }
  destruct (C82_reads toy 5 2 c st 4 U ltac:(lia) ltac:(lia)) as (_ & _ & Er & _). rewrite Ec in Er.
  assert (Ne : c 4%N <> ∅) by (rewrite Ec; intros Z; apply (f_equal (lookup K00)) in Z; revert Z; vm_compute; discriminate).
  assert (NB : ~ hash_broken toy (root_inputs toy (c 4%N))) by (rewrite Ec; exact toy_demo). assert (Sz : size (c 4%N) < 4) by (rewrite Ec; vm_compute; lia).
  set (evs := [Fetch (store_reader st) [store_reader st] (store_reader s1); Die; Fetch (store_reader st) [store_reader st; store_reader s1] (store_reader s1)]).
  set (e := Fetch (store_reader s1) [store_reader st; store_reader s1; store_reader s1; store_reader s1] (store_reader s1)).
  assert (Fs : from_source toy 5 2 st 4 (evs ++ [e])).
  { unfold from_source, evs, e. cbn [app]. rewrite !Forall_cons. cbn [readers]. rewrite !Forall_cons. rewrite !Forall_nil. tauto. }
  destruct (C88_replicates toy true 5 2 c st 4 9 (smt_root toy demo_map) (store_reader st) U ltac:(lia) ltac:(lia) Ne NB A0 Er (evs ++ [e]) Fs) as (rs & pos & E & Q).
  destruct (C88_completes toy true 5 2 c st 4 9 (smt_root toy demo_map) (store_reader st) U ltac:(lia) ltac:(lia) Ne NB A0 Er evs _ _ _ Fs Sz) as (rs' & pos' & E' & D).
  fold e in E'. rewrite E in E'. injection E' as <- <-. destruct (Q D) as (s & F & Us & Sa).
  destruct (C88_replicates toy true 5 2 c st 4 9 (smt_root toy demo_map) (store_reader s1) U ltac:(lia) ltac:(lia) Ne NB A1) with (evs := evs ++ [e]) as (rs2 & pos2 & E2 & Q2); [|exact Fs|].
  { destruct (C82_concurrent toy 5 2 c st 4 _ U ltac:(lia) ltac:(lia) A1) as [(_ & _ & Z & _) _]. rewrite Ec in Z. exact Z. }
  rewrite E in E2. injection E2 as <- <-. destruct (Q2 D) as (s2 & F2 & _ & Sa2). rewrite F in F2. injection F2 as <-. rewrite Ec in D, Us.
  exists st, xs, s1, y1, rs, pos, s. split; [exact R|]. split; [exact R1|]. cbn zeta. split; [exact Fs|]. split; [exact E|]. split; [exact D|]. split; [exact F|]. split; [exact Us|]. split; [exact Sa|exact Sa2].
Qed.
