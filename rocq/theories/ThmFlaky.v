(** C65: iterating over a store whose requests may fail. *)
From Verif Require Import Base Spec SpecOrder SpecRange NodeType ProofDef TreeCache Tree Mock Driver Iterator IterStep Exclusion KeyFacts SmtFacts ProofFacts NodeFacts Canon CanonSib ReadFacts PutFacts InsertFacts PutTop VersionFacts ValueFacts StoreFacts DriverFacts DriverFacts2 LeafVersion KeyOrder OrderFacts IterFacts ExclFacts ThmProof ThmStore ThmRange ThmIter ThmExcl ThmCrash ThmConc ThmPurged Demo Toy.
From Coq Require Import Lia.
Local Opaque Spec.smt.

(** *** Specification *)
(** The items of successive calls of next(), each with its own reader. *)
Fixpoint collect (rds : list reader) (it : jmt_iter) : outcome (list it_item) :=
  match rds with
  | [] => Ok []
  | rd :: rds' => '(i, it') ← iter_step rd it; is ← collect rds' it'; Ok (i :: is)
  end.
(** The entries among them. *)
Definition oks (l : list it_item) : list (key * value) := omap (fun i => match i with ItOk kx => Some kx | _ => None end) l.
(** A reader each of whose requests is answered from some state the store passes through, or fails. *)
Definition flaky (H : list byte -> bytes32) (ops : list op) (rd : reader) : Prop :=
  (forall nk, rd_node rd nk = None \/ exists s, passes_any H ops s /\ rd_node rd nk = st_nodes s !! nk) /\
  (forall w k, rd_value rd w k = None \/ exists s, passes_any H ops s /\ rd_value rd w k = store_value s w k).

(** *** Proof *)
Section agree.
Context (rd : reader).
Lemma step_loop_next f : forall v st, iter_next_loop rd f v st = item_result (iter_step_loop rd f v st).
Proof.
  induction f as [|f IH]; intros v st; cbn [iter_next_loop iter_step_loop]; [done|]. destruct st as [|x st]; [done|].
  destruct (nib_from_u8 _) as [n| |]; [|done|done]. rewrite !bind_Ok. destruct (unwrap _) as [c| |]; [|done|done]. rewrite !bind_Ok. cbn zeta.
  destruct (rd_get_node rd _) as [[| |]| |]; [done| | |done|done].
  - rewrite bind_Ok. destruct (visit_new _ _) as [x'| |]; [|done|done]. rewrite !bind_Ok. apply IH.
  - rewrite bind_Ok. destruct (rd_get_value rd _ _) as [y| |]; [|done|done]. rewrite bind_Ok. destruct (cleanup_stack _) as [s| |]; done.
Qed.
Lemma step_next it : iter_next rd it = item_result (iter_step rd it).
Proof.
  unfold iter_next, iter_step. destruct (it_done it); [done|]. destruct (it_stack it); [|apply step_loop_next].
  destruct (rd_get_node rd _) as [[| |]| |]; [done|done| |done|done]. rewrite bind_Ok. cbn zeta. destruct (rd_get_value rd _ _) as [y| |]; done.
Qed.
End agree.

Section flaky.
Context (H : list byte -> bytes32).
Definition fview (ver : list nibble -> version) (rd : reader) (v : version) (m : gmap key value) : Prop :=
  (forall nk nd, needs ver (H <$> m) v nk -> rd_node rd nk = Some nd -> nd = node_at H (H <$> m) ver nk.2) /\
  (forall p n k x y, 2 <= size (U p m) -> U (p ++ [n]) m = {[ k := x ]} -> rd_value rd (ver (p ++ [n])) k = Some y -> y = x).
Section one.
Context (m : gmap key value) (ver : list nibble -> version) (rd : reader) (v : version) (V : fview ver rd v m).
Notation M := (H <$> m).
Lemma get_node_cases nk : needs ver M v nk -> rd_get_node rd nk = Ok (node_at H M ver nk.2) \/ exists e, rd_get_node rd nk = Err e.
Proof.
  intros N. unfold rd_get_node. destruct (rd_node rd nk) as [nd|] eqn:E; [left|right; by eexists]. cbn. f_equal. by apply V.
Qed.
Lemma step_loop_flaky : forall fuel x p n st, chain H m ver ((x, (p, n)) :: st) (p ++ [n]) -> 65 <= fuel + length (p ++ [n]) ->
  exists i st' q', iter_step_loop rd fuel v (x :: st.*1) = Ok (i, mkIter v st'.*1 false) /\ chain H m ver st' q' /\
    match i with
    | ItEnd => False
    | ItOk kx => rest m ((x, (p, n)) :: st) = kx :: rest m st'
    | ItErr _ => st' <> [] /\ rest m ((x, (p, n)) :: st) = rest m st'
    end.
Proof.
  induction fuel as [|f IH]; intros x p n st C Lf; pose proof C as (_ & Fr & C0); pose proof Fr as [K Mn (s & Nd) B Nx Hn];
    pose proof (U_len _ _ Hn) as L64; [lia|].
  cbn [iter_step_loop]. rewrite Nx, tz_nbit, nib_from_u8_nib, bind_Ok.
  assert (Hn' : U (p ++ [n]) M <> ∅) by by apply U_fm_ne.
  destruct (in_child_canon H M ver p s n Hn') as (c & Ec & Ev). rewrite Nd, Ec. cbn [unwrap]. rewrite bind_Ok. unfold gen_child. rewrite K, Ev. cbn zeta.
  assert (Nk : needs ver M v (ver (p ++ [n]), p ++ [n])).
  { right. cbn [fst snd]. rewrite parent_snoc, U_fm_size. split_and!; [by destruct p|done..]. }
  destruct (get_node_cases _ Nk) as [->|(e & ->)]; cbn [snd].
  2: { exists (ItErr e), ((x, (p, n)) :: st), (p ++ [n]). done. }
  destruct (node_cases H m ver (p ++ [n]) Hn) as [(k & y & E & En)|(Hm & s' & En)]; rewrite En.
  - cbn [nk_version fst ln_key]. unfold rd_get_value. destruct (rd_value rd (ver (p ++ [n])) k) as [y'|] eqn:Ey; cbn [ok_or].
    2: { eexists (ItErr _), ((x, (p, n)) :: st), (p ++ [n]). done. }
    assert (y' = y) as -> by (by eapply (proj2 V)).
    destruct (cleanup_ok H m ver _ _ C) as (st' & q' & E1 & E2 & E3). cbn [fmap list_fmap fst] in E1. rewrite E1, bind_Ok. exists (ItOk (k, y)), st', q'. split; [done|]. split; [done|].
    rewrite E3. cbn [rest egts flat_map fst snd]. unfold ege. by rewrite E, entries_single.
  - destruct (visit_new_ok H m ver (p ++ [n]) s' (ver (p ++ [n]), p ++ [n]) Hm eq_refl) as (x' & j & Ex & Fr' & Ee). rewrite Ex, bind_Ok.
    destruct (IH x' (p ++ [n]) j ((x, (p, n)) :: st)) as (i & st' & q' & E1 & E2 & E3).
    + split; [done|]. split; [done|]. exact C.
    + rewrite !app_length in *. cbn [length] in *. lia.
    + exists i, st', q'. split; [exact E1|]. split; [done|].
      assert (Er : rest m ((x', (p ++ [n], j)) :: (x, (p, n)) :: st) = rest m ((x, (p, n)) :: st)) by (cbn [rest egts flat_map fst snd]; rewrite <- Ee; unfold ege; by rewrite <- app_assoc).
      rewrite Er in E3. exact E3.
Qed.
Lemma iter_step_flaky it l : size m <> 1 -> it_rest H m ver v it l -> exists i it', iter_step rd it = Ok (i, it') /\
  match i with
  | ItEnd => l = [] /\ it_rest H m ver v it' []
  | ItOk kx => exists l', l = kx :: l' /\ it_rest H m ver v it' l'
  | ItErr _ => it_rest H m ver v it' l
  end.
Proof.
  intros N1 R. unfold iter_step. destruct R as [Ev Ed|Ev Ed Es Hm|k x Ev Ed Es E|f st q Ev Ed Es C].
  - rewrite Ed. eexists _, _. split; [done|]. split; [done|]. by apply ir_done.
  - rewrite Ed, Es, Ev. destruct (get_node_cases (nk_root v)) as [->|(e & ->)]; [by left| |].
    + cbn [snd nk_root]. rewrite node_at_internal by (by rewrite U_fm_size, U_nil). eexists _, _. split; [done|]. split; [done|]. by apply ir_over.
    + eexists _, _. split; [done|]. by apply ir_over.
  - rewrite E, map_size_singleton in N1. done.
  - rewrite Ed, Es, Ev. destruct f as [x [p n]]. pose proof C as (-> & _). destruct (step_loop_flaky 65 x p n st C) as (i & st' & q' & E1 & E2 & E3).
    { rewrite app_length. cbn. lia. }
    pose proof (chain_many H m ver _ _ C) as Cm. eexists _, _. split; [exact E1|]. destruct i as [|kx|e]; [done| |].
    + eexists. split; [exact E3|]. apply (rest_iter H m ver v st' q'); [done|]. by apply Cm.
    + rewrite (proj2 E3). apply (rest_iter H m ver v st' q'); [done|]. by apply Cm.
Qed.
End one.
Lemma collect_flaky (m : gmap key value) ver v rds : size m <> 1 -> (forall rd, rd ∈ rds -> fview ver rd v m) -> forall l it, it_rest H m ver v it l ->
  exists items, collect rds it = Ok items /\ length items = length rds /\ oks items `prefix_of` l /\
    (forall j, items !! j = Some ItEnd -> oks (take j items) = l) /\
    (forall j rd e, rds !! j = Some rd -> vview H ver rd v m -> items !! j <> Some (ItErr e)).
Proof.
  intros N1. induction rds as [|rd rds IH]; intros F l it R.
  { exists []. split_and!; [done|done|apply prefix_nil|done|done]. }
  destruct (iter_step_flaky m ver rd v (F rd (elem_of_list_here _ _)) it l N1 R) as (i & it' & E & Q).
  assert (G : forall l', it_rest H m ver v it' l' -> exists items, collect rds it' = Ok items /\ length items = length rds /\ oks items `prefix_of` l' /\
    (forall j, items !! j = Some ItEnd -> oks (take j items) = l') /\
    (forall j rd e, rds !! j = Some rd -> vview H ver rd v m -> items !! j <> Some (ItErr e))).
  { intros l'. apply IH. intros rd' Hr. apply F. by right. }
  assert (Z : forall e, i = ItErr e -> ~ vview H ver rd v m).
  { intros e -> (St & Hv & Hk). assert (Hv0 : forall k x, m = {[ k := x ]} -> rd_value rd v k = Some x) by (intros k x F'; rewrite Hk, F'; apply lookup_singleton).
    pose proof (iter_next_ok H m ver rd v St Hv Hv0 it l R) as K. rewrite step_next, E in K. cbn in K. destruct l; [done|]. by destruct K as (? & ? & _). }
  cbn [collect]. rewrite E, bind_Ok. cbn beta iota. destruct i as [|kx|e].
  - destruct Q as [-> Q]. destruct (G _ Q) as (items & -> & G1 & G2 & G3 & G4). rewrite bind_Ok. exists (ItEnd :: items). split_and!; [done|cbn; lia|exact G2| |].
    + intros [|j]; [done|]. apply G3.
    + intros [|j]; [done|]. apply G4.
  - destruct Q as (l' & -> & Q). destruct (G _ Q) as (items & -> & G1 & G2 & G3 & G4). rewrite bind_Ok. exists (ItOk kx :: items). split_and!; [done|cbn; lia|by apply prefix_cons| |].
    + intros [|j]; [done|]. intros Hj. apply G3 in Hj. cbn. by f_equal.
    + intros [|j]; [done|]. apply G4.
  - destruct (G _ Q) as (items & -> & G1 & G2 & G3 & G4). rewrite bind_Ok. exists (ItErr e :: items). split_and!; [done|cbn; lia|exact G2| |].
    + intros [|j]; [done|]. apply G3.
    + intros [|j]; [|apply G4]. cbn. intros rd' e' [= <-] W. by destruct (Z e eq_refl).
Qed.
End flaky.
Section theorems.
Context (H : list byte -> bytes32).
Lemma flaky_fview ops st xs v : run H ops = Ok (st, xs) -> (v < num_versions ops)%N -> exists x, (xrun H tb0 ops).1 !! N.to_nat v = Some x /\
  forall rd, flaky H ops rd -> fview H (a_ver (vs_a x)) rd v (contents_at (history ops) v).
Proof.
  intros R Lv. destruct (any_pview H ops st xs v R Lv) as (x & Ex & V). exists x. split; [done|]. intros rd [Fn Fv]. split.
  - intros nk nd N E. destruct (Fn nk) as [Z|(s & Ps & Es)]; [congruence|]. rewrite Es in E. destruct (V s Ps) as (K & _). by apply (K nk nd N).
  - intros p n k y z Mn E Ez. destruct (Fv (a_ver (vs_a x) (p ++ [n])) k) as [Z|(s & Ps & Es)]; [congruence|]. rewrite Es in Ez.
    destruct (V s Ps) as (_ & K & _). specialize (K p n k y Mn E). cbn in K. congruence.
Qed.
(** an iterator built by a flaky reader *)
Lemma flaky_new ops st xs v rd0 : run H ops = Ok (st, xs) -> (v < num_versions ops)%N -> flaky H ops rd0 ->
  exists x, (xrun H tb0 ops).1 !! N.to_nat v = Some x /\ (forall rd, flaky H ops rd -> fview H (a_ver (vs_a x)) rd v (contents_at (history ops) v)) /\
  exists rd', (forall nk nd, rd_node rd0 nk = Some nd -> rd_node rd' nk = Some nd) /\ stored H rd' (H <$> contents_at (history ops) v) (a_ver (vs_a x)) v.
Proof.
  intros R Lv F0. destruct (flaky_fview ops st xs v R Lv) as (x & Ex & V). exists x. split; [done|]. split; [done|]. pose proof (V rd0 F0) as [V1 _].
  set (m := contents_at (history ops) v) in *. set (ver := a_ver (vs_a x)) in *.
  set (rd1 := mkReader (rd_node rd0) (fun w k => rd_value (store_reader st) w k) None).
  assert (W : pview H ver rd1 v m).
  { destruct (run_pview H ops st xs v R Lv) as (x' & Ex' & _ & P). rewrite Ex in Ex'. injection Ex' as <-. destruct P as (_ & P2 & P3). split; [exact V1|]. split; [exact P2|exact P3]. }
  exists (filled H ver rd1 v m). split; [apply (filled_le H _ _ _ _ W)|]. apply (filled_view H _ _ _ _ W).
Qed.
(** However many requests fail, in the construction and during the calls of next(), at whatever points: no call panics, the
    entries given are the first ones, in order and without gaps; the end is only announced after all of them; and a call
    during which nothing fails gives an entry or the end, not an error.  [m] is the contents of version [v], which must
    not have exactly one entry. *)
Theorem C65_flaky_iteration (ops : list op) st xs (v : version) (rd0 : reader) (start : key) it (rds : list reader) :
  run H ops = Ok (st, xs) -> (v < num_versions ops)%N -> let m := contents_at (history ops) v in size m <> 1 ->
  flaky H ops rd0 -> iter_new rd0 v start = Ok it -> Forall (flaky H ops) rds ->
  exists items, collect rds it = Ok items /\ length items = length rds /\ oks items `prefix_of` entries_from start m /\
    (forall j, items !! j = Some ItEnd -> oks (take j items) = entries_from start m) /\
    (forall j rd e, rds !! j = Some rd -> readable ops v -> concurrent H ops v rd -> items !! j <> Some (ItErr e)).
Proof.
  intros R Lv m N1 F0 E F. destruct (flaky_new ops st xs v rd0 R Lv F0) as (x & Ex & V & rd' & Le & St). fold m in V, St.
  apply (iter_new_le rd0 rd' Le) in E. destruct (iter_new_ok H m _ rd' v St start) as (it' & E' & Rt). rewrite E in E'. injection E' as <-.
  destruct (collect_flaky H m _ v rds N1 (fun rd Hr => V rd (proj1 (Forall_forall _ _) F rd Hr)) _ _ Rt) as (items & A & B & C & D & G).
  exists items. split_and!; [done..|]. intros j rd e Ej Rv Cr. apply (G j rd e Ej). destruct (concurrent_view H ops st xs v R Rv) as (x' & Ex' & W). rewrite Ex in Ex'. injection Ex' as <-. by apply W.
Qed.
Theorem C65_flaky_iteration_by_index (ops : list op) st xs (v : version) (rd0 : reader) (i : nat) it (rds : list reader) :
  run H ops = Ok (st, xs) -> (v < num_versions ops)%N -> let m := contents_at (history ops) v in size m <> 1 ->
  flaky H ops rd0 -> iter_new_by_index rd0 v i = Ok it -> Forall (flaky H ops) rds ->
  exists items, collect rds it = Ok items /\ length items = length rds /\ oks items `prefix_of` drop i (entries m) /\
    (forall j, items !! j = Some ItEnd -> oks (take j items) = drop i (entries m)) /\
    (forall j rd e, rds !! j = Some rd -> readable ops v -> concurrent H ops v rd -> items !! j <> Some (ItErr e)).
Proof.
  intros R Lv m N1 F0 E F. destruct (flaky_new ops st xs v rd0 R Lv F0) as (x & Ex & V & rd' & Le & St). fold m in V, St.
  apply (iter_new_by_index_le rd0 rd' Le) in E. destruct (iter_new_by_index_ok H m _ rd' v St i) as (it' & E' & Rt). rewrite E in E'. injection E' as <-.
  destruct (collect_flaky H m _ v rds N1 (fun rd Hr => V rd (proj1 (Forall_forall _ _) F rd Hr)) _ _ Rt) as (items & A & B & C & D & G).
  exists items. split_and!; [done..|]. intros j rd e Ej Rv Cr. apply (G j rd e Ej). destruct (concurrent_view H ops st xs v R Rv) as (x' & Ex' & W). rewrite Ex in Ex'. injection Ex' as <-. by apply W.
Qed.
End theorems.

(** *** FALSE for a version with exactly one entry: [done] is set before the value is read, so after one failed value
    request the iterator ends without ever giving the entry. *)
Definition no_values (rd : reader) : reader := mkReader (rd_node rd) (fun _ _ => None) (rd_rightmost rd).
Theorem C65_single_entry_refuted (H : list byte -> bytes32) : exists st xs it, run H [Commit [[(K00, Some va)]]] = Ok (st, xs) /\
  iter_new (store_reader st) 0 K00 = Ok it /\ flaky H [Commit [[(K00, Some va)]]] (no_values (store_reader st)) /\
  collect [no_values (store_reader st); store_reader st; store_reader st] it = Ok [ItErr EMissingValue; ItEnd; ItEnd] /\
  entries_from K00 (contents_at (history [Commit [[(K00, Some va)]]]) 0) = [(K00, va)].
Proof.
  set (ops := [Commit [[(K00, Some va)]]]).
  assert (E : match run H ops with Ok (st, _) => match iter_new (store_reader st) 0 K00 with Ok it => 
    match collect [no_values (store_reader st); store_reader st; store_reader st] it with Ok [ItErr EMissingValue; ItEnd; ItEnd] => true | _ => false end | _ => false end | _ => false end = true) by (vm_compute; reflexivity).
  destruct (run H ops) as [[st xs]| |] eqn:R; [|discriminate..]. destruct (iter_new (store_reader st) 0 K00) as [it| |] eqn:Ei; [|discriminate..].
  exists st, xs, it. split; [reflexivity|]. split; [exact Ei|]. split; [|split].
  - assert (P : passes_any H ops st) by (apply (any_between H ops [] st xs); rewrite app_nil_r; exact R). split; [|intros; left; reflexivity]. intros nk. right. exists st. split; [exact P|reflexivity].
  - destruct (collect _ it) as [[|[|a|[]] [|[|b|e2] [|[|c|e3] [|]]]]| |]; first [discriminate E|reflexivity].
  - vm_compute. reflexivity.
Qed.
(** The hypotheses of the theorems are met: on the demo history, a first call where nothing answers, a second where only the
    values fail, then undisturbed ones. *)
Example flaky_demo (H : list byte -> bytes32) st xs : run H demo = Ok (st, xs) -> exists it,
  let good := store_reader st in let dead := mkReader (fun _ => None) (fun _ _ => None) None in
  iter_new good 4 K00 = Ok it /\ Forall (flaky H demo) [dead; no_values good; good; good; no_values good; good; good] /\ flaky H demo good /\
  exists items, collect [dead; no_values good; good; good; no_values good; good; good] it = Ok items /\ oks items = [(K00, vb); (K80, va); (KC0, vc)].
Proof.
  intros R. assert (P : passes_any H demo st) by (apply (any_between H demo [] st xs); rewrite app_nil_r; exact R).
  destruct (C26_iterate_from H demo st xs 4 K00 R (proj1 (proj2 (proj2 demo_readable)))) as (it & Ei & _).
  exists it. cbn zeta. set (good := store_reader st). set (dead := mkReader (fun _ => None) (fun _ _ => None) None).
  assert (Fg : flaky H demo good) by (split; intros; right; exists st; split; first [exact P|reflexivity]).
  assert (Fd : flaky H demo dead) by (split; intros; left; reflexivity).
  assert (Fn : flaky H demo (no_values good)) by (split; intros; [right; exists st; split; first [exact P|reflexivity]|left; reflexivity]).
  split; [exact Ei|]. split; [repeat first [apply Forall_nil_2|apply Forall_cons_2; [assumption|]]|]. split; [exact Fg|].
  assert (E : match run H demo with Ok (st, _) => match iter_new (store_reader st) 4 K00 with Ok it => 
    match collect [dead; no_values (store_reader st); store_reader st; store_reader st; no_values (store_reader st); store_reader st; store_reader st] it with Ok items => bool_decide (oks items = [(K00, vb); (K80, va); (KC0, vc)]) | _ => false end | _ => false end | _ => false end = true) by (vm_compute; reflexivity).
  rewrite R, Ei in E. fold good in E. destruct (collect _ it) as [items| |]; [|discriminate..]. exists items. split; [reflexivity|]. exact (bool_decide_eq_true_1 _ E).
Qed.
