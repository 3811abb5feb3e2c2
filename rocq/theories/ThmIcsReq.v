(** C100: ICS23 proofs from any store that keeps the contract, at any time: while the store commits, prunes and crashes, when each single request - for a node, a value, the preimage of a
    key hash - is answered on its own and may fail, and for versions that are purged. *)
From Coq Require Import Strings.String.
From Verif Require Import Restore.
From Verif Require Import Base Spec SpecOrder NodeType ProofDef TreeCache Tree Mock Driver Exclusion Iterator KeyFacts SmtFacts ProofFacts KeyOrder OrderFacts NodeFacts Canon ExclFacts DriverFacts ReadFacts ThmExcl
  ThmCrash ThmPurged Ics23 Ics23Verify IcsFacts ThmIcs Requests RequestFacts RequestSafe ThmRequests ThmOrigin ThmBackend ThmBRestore ThmBOrigin ThmBConc ThmBReq ThmBPurged IcsRequests Demo Toy.
From Coq Require Import Lia.
Local Opaque Spec.smt root_inputs ms_in.

(** *** Specification *)
(** [(y, e)] is the right answer for the raw key [k] and the contents [m]: the value, and an ICS23 proof that a light client accepts against the root of [m] - ICS23 knows neither empty keys nor
    empty values -; a proof of absence names the true neighbours. *)
Definition ics_right (H : list byte -> bytes32) (m : gmap key value) (k : list byte) (y : option value) (e : commitment_proof) : Prop :=
  y = m !! H k /\
  match y with
  | Some x => exists p, e = CPExist p /\ (k <> [] -> x <> [] -> verify_membership H ics23_spec (b32 (smt_root H m)) k x e = true)
  | None => exists n, e = CPNonexist n /\ ((forall j x, m !! j = Some x -> pred_key m (H k) j \/ succ_key m (H k) j -> x <> []) ->
      ics_names H m k n /\ verify_non_membership H ics23_spec (b32 (smt_root H m)) k e = true)
  end.
(** Answers about preimages that are honest: a nonempty preimage, none, or an error ... *)
Definition honest (H : list byte -> bytes32) (ap : key -> outcome (option (list byte)) -> Prop) : Prop :=
  forall j r, ap j r -> (exists raw, r = Ok (Some raw) /\ H raw = j /\ raw <> []) \/ r = Ok None \/ forall y, r <> Ok y.
(** ... and the preimages of the neighbours of [k] are known. *)
Definition knows (H : list byte -> bytes32) (ap : key -> outcome (option (list byte)) -> Prop) (m : gmap key value) (k : key) : Prop :=
  forall j r, ap j r -> pred_key m k j \/ succ_key m k j -> exists raw, r = Ok (Some raw) /\ H raw = j /\ raw <> [].
(** the answers of a map of preimages whose requests may fail *)
Definition flaky_pre (pre : key -> option (list byte)) (k : key) : outcome (option (list byte)) -> Prop := or_fails (pre k).

(** *** Proof *)
Section facts.
Context (H : list byte -> bytes32).
Lemma runi_bind rd pre {A B} (p : iprog A) (f : A -> iprog B) : runi rd pre (p ≫= f) = (a ← runi rd pre p; runi rd pre (f a)).
Proof. unfold mbind, iprog_bind. induction p as [[]|nk k IH|w x k IH|x k IH]; cbn; [done..|apply IH|apply IH|apply IH]. Qed.
Lemma runi_lift rd pre {A} (p : prog A) : runi rd pre (lift p) = runp rd p.
Proof. induction p as [o|nk k IH|w x k IH]; cbn; [done|apply IH|apply IH]. Qed.
Lemma neighbour_p_ok rd pre ovf pf v p : runi rd pre (neighbour_p H ovf pf v p) = neighbour H rd pre ovf pf v p.
Proof.
  unfold neighbour_p, neighbour. rewrite runi_bind. cbn [runi]. apply obind_ext. intros l. cbn zeta. destruct pf.
  - rewrite runi_bind. unfold req_preimage at 1. cbn [runi]. destruct (pre (ln_key l)) as [k|]; [|done]. cbn [ok_or]. rewrite !bind_Ok. rewrite runi_bind. unfold req_neighbour_value. rewrite runi_bind, runi_lift, get_p_ok.
    unfold get. rewrite !bind_Ok. cbn [runi]. destruct (rd_value rd v (ln_key l)); [|done]. cbn [ok_or]. by rewrite !bind_Ok.
  - rewrite runi_bind. unfold req_neighbour_value. rewrite runi_bind, runi_lift, get_p_ok. unfold get. rewrite !bind_Ok. cbn [runi]. destruct (rd_value rd v (ln_key l)); [|done]. cbn [ok_or]. rewrite !bind_Ok.
    rewrite runi_bind. unfold req_preimage. cbn [runi]. destruct (pre (ln_key l)); [|done]. cbn [ok_or]. by rewrite !bind_Ok.
Qed.
Lemma exclusion_p_ok rd pre ovf k v e : runi rd pre (exclusion_to_ics23_p H ovf k v e) = exclusion_to_ics23 H rd pre ovf k v e.
Proof.
  destruct e as [r|r l|l]; cbn [exclusion_to_ics23_p exclusion_to_ics23]; rewrite runi_bind, neighbour_p_ok; [done| |done]. apply obind_ext. intros r'. rewrite runi_bind, neighbour_p_ok. done.
Qed.
Lemma ics_p_ok rd pre ovf k v : runi rd pre (get_with_ics23_proof_p H ovf k v) = get_with_ics23_proof H rd pre ovf k v.
Proof.
  unfold get_with_ics23_proof_p, get_with_ics23_proof. rewrite runi_bind, runi_lift, get_with_exclusion_proof_p_ok. apply obind_ext. intros [[x p]|e].
  - rewrite runi_bind. cbn [runi]. done.
  - rewrite runi_bind, exclusion_p_ok. done.
Qed.
Lemma runi_may rd pre (an : nodekey -> outcome (option node) -> Prop) (av : version -> key -> outcome (option value) -> Prop) (ap : key -> outcome (option (list byte)) -> Prop) {A} (p : iprog A) :
  (forall nk, an nk (Ok (rd_node rd nk))) -> (forall w x, av w x (Ok (rd_value rd w x))) -> (forall x, ap x (Ok (pre x))) -> mayi an av ap p (runi rd pre p).
Proof. intros An Av Ap. induction p as [o|nk k IH|w x k IH|x k IH]; cbn [runi]; [constructor|by eapply mayi_node|by eapply mayi_value|by eapply mayi_pre]. Qed.
Section may.
Context (an : nodekey -> outcome (option node) -> Prop) (av : version -> key -> outcome (option value) -> Prop) (ap : key -> outcome (option (list byte)) -> Prop).
Notation mayi' := (mayi an av ap).
Lemma mayi_done_inv {A} (o o' : outcome A) : mayi' (IDone o) o' -> o' = o.
Proof. by inversion 1. Qed.
Lemma mayi_bind {A B} (p : iprog A) (f : A -> iprog B) o : mayi' (p ≫= f) o -> exists o1, mayi' p o1 /\ match o1 with Ok a => mayi' (f a) o | Err e => o = Err e | Panic => o = Panic end.
Proof.
  revert o. induction p as [o1|nk k IH|w x k IH|x k IH]; intros o M.
  - exists o1. split; [constructor|]. destruct o1; [done|by inversion M; subst..].
  - change (INode nk k ≫= f) with (INode nk (fun r => k r ≫= f)) in M. inversion M as [|nk' k' r o' Ar M'| |]; subst. apply IH in M' as (o1 & M1 & M2). exists o1. split; [by eapply mayi_node|done].
  - change (IValue w x k ≫= f) with (IValue w x (fun r => k r ≫= f)) in M. inversion M as [| |w' x' k' r o' Ar M'|]; subst. apply IH in M' as (o1 & M1 & M2). exists o1. split; [by eapply mayi_value|done].
  - change (IPre x k ≫= f) with (IPre x (fun r => k r ≫= f)) in M. inversion M as [| | |x' k' r o' Ar M']; subst. apply IH in M' as (o1 & M1 & M2). exists o1. split; [by eapply mayi_pre|done].
Qed.
Lemma mayi_lift {A} (p : prog A) o : mayi' (lift p) o -> may an av p o.
Proof.
  revert o. induction p as [o1|nk k IH|w x k IH]; intros o M; cbn [lift] in M.
  - inversion M; subst. constructor.
  - inversion M as [|nk' k' r o' Ar M'| |]; subst. eapply may_node; [exact Ar|by apply IH].
  - inversion M as [| |w' x' k' r o' Ar M'|]; subst. eapply may_value; [exact Ar|by apply IH].
Qed.
Lemma mayi_pure {A B} (o1 : outcome A) (f : A -> iprog B) o : mayi' (IDone o1 ≫= f) o -> match o1 with Ok a => mayi' (f a) o | Err e => o = Err e | Panic => o = Panic end.
Proof. intros M. apply mayi_bind in M as (o2 & M1 & M2). apply mayi_done_inv in M1 as ->. exact M2. Qed.

(** the answers about values of [v] are those of [rd], or failures; so is the query for the proof *)
Context (fl : Prop) (rd : reader) (v : version) (Av : forall k r, av v k r -> r = Ok (rd_value rd v k) \/ (fl /\ failed r)).
Lemma value_may j o : mayi' (req_neighbour_value j v) o -> o = ok_or (EOther "missing value for key hash") (rd_value rd v j) \/ (fl /\ failed o).
Proof using Av.
  intros M. unfold req_neighbour_value in M. apply mayi_bind in M as (o1 & M1 & M2). apply mayi_lift in M1. unfold get_p, req_value_option in M1. inversion M1 as [| |w x k r o' Ar M']; subst. inversion M'; subst.
  destruct (Av _ _ Ar) as [->|[Fl F]]; [left; by apply mayi_done_inv in M2|]. right. split; [done|]. destruct o1; [by destruct (F a)|by subst..].
Qed.
Lemma preimage_may j o : mayi' (req_preimage j) o -> (exists raw, ap j (Ok (Some raw)) /\ o = Ok raw) \/ (failed o /\ exists r, ap j r /\ forall raw, r <> Ok (Some raw)).
Proof using. clear.
  intros M. unfold req_preimage in M. inversion M as [| | |x k r o' Ar M']; subst. apply mayi_done_inv in M' as ->. destruct r as [[raw|]|e|]; [left; by exists raw|right; split; [done|]..]; by eexists.
Qed.
Lemma neighbour_may ovf pf p l o : p_leaf p = Some l -> mayi' (neighbour_p H ovf pf v p) o ->
  (exists raw, ap (ln_key l) (Ok (Some raw)) /\ forall pre, pre (ln_key l) = Some raw -> o = neighbour H rd pre ovf pf v p) \/
  (failed o /\ (fl \/ rd_value rd v (ln_key l) = None \/ exists r, ap (ln_key l) r /\ forall raw, r <> Ok (Some raw))).
Proof using Av.
  intros El M. unfold neighbour_p in M. rewrite El in M. cbn [unwrap] in M. apply mayi_pure in M. unfold neighbour. rewrite El. cbn [unwrap]. destruct pf.
  - apply mayi_bind in M as (o1 & M1 & M). apply preimage_may in M1 as [(raw & Ar & ->)|[F Z]].
    2:{ right. split; [|by right; right]. destruct o1; [by destruct (F a)|by subst..]. }
    apply mayi_bind in M as (o2 & M2 & M). apply value_may in M2 as [->|[Fl F]]; [|right; split; [|by left]; destruct o2; [by destruct (F a)|by subst..]].
    destruct (rd_value rd v (ln_key l)) as [x|] eqn:Ex; [|right; split; [cbn in M; by subst|by right; left]]. cbn [ok_or] in M. apply mayi_done_inv in M as ->. left. exists raw. split; [done|]. intros pre Ep. rewrite bind_Ok, Ep. unfold get. rewrite Ex. cbn [ok_or]. rewrite !bind_Ok. cbn [ok_or]. by rewrite !bind_Ok.
  - apply mayi_bind in M as (o2 & M2 & M). apply value_may in M2 as [->|[Fl F]]; [|right; split; [|by left]; destruct o2; [by destruct (F a)|by subst..]].
    destruct (rd_value rd v (ln_key l)) as [x|] eqn:Ex; [|right; split; [cbn in M; by subst|by right; left]]. cbn [ok_or] in M.
    apply mayi_bind in M as (o1 & M1 & M). apply preimage_may in M1 as [(raw & Ar & ->)|[F Z]].
    2:{ right. split; [|by right; right]. destruct o1; [by destruct (F a)|by subst..]. }
    apply mayi_done_inv in M as ->. left. exists raw. split; [done|]. intros pre Ep. rewrite bind_Ok, Ep. unfold get. rewrite Ex. cbn [ok_or]. rewrite !bind_Ok. cbn [ok_or]. by rewrite !bind_Ok.
Qed.
End may.
End facts.

Lemma pred_key_unique (m : gmap key value) k j j' : pred_key m k j -> pred_key m k j' -> j = j'.
Proof. intros (I & L & G) (I' & L' & G'). destruct (G j' I' L') as [->|Z]; [done|]. destruct (G' j I L) as [->|Z']; [done|]. by destruct (key_lt_irrefl j (key_lt_trans _ _ _ Z' Z)). Qed.
Lemma succ_key_unique (m : gmap key value) k j j' : succ_key m k j -> succ_key m k j' -> j = j'.
Proof. intros (I & L & G) (I' & L' & G'). destruct (G j' I' L') as [->|Z]; [done|]. destruct (G' j I L) as [->|Z']; [done|]. by destruct (key_lt_irrefl j (key_lt_trans _ _ _ Z Z')). Qed.
Section core.
Context (H : list byte -> bytes32).
Context (fl : Prop) (an : nodekey -> outcome (option node) -> Prop) (av : version -> key -> outcome (option value) -> Prop) (ap : key -> outcome (option (list byte)) -> Prop).
Context (rd : reader) (ver : list nibble -> version) (v : version) (m : gmap key value) (V : vview H ver rd v m).
Context (An : forall nk r, an nk r -> rd_node rd nk <> None -> r = Ok (rd_node rd nk) \/ (fl /\ (failed r \/ r = Ok None))) (Av : fair_v fl rd av).
Context (Avv : forall k r, av v k r -> r = Ok (rd_value rd v k) \/ (fl /\ failed r)).
Notation mayi' := (mayi an av ap).
Lemma excl_empty k : m = ∅ -> exists e, get_with_exclusion_proof H rd k v = Err e.
Proof using V.
  intros Em. destruct (view_reader H rd v m) as (_ & P & _); [by exists ver|]. destruct (P k) as (p & E & _). unfold get_with_exclusion_proof. rewrite E, Em, bind_Ok. cbn beta iota.
  assert (Rt : rd_node rd (nk_root v) = Some Null).
  { destruct V as ([Rt _] & _). unfold nk_root. rewrite Rt, Em, fmap_empty, node_at_null; [done|]. by rewrite U_nil. }
  unfold get_bounding_path. unfold search_for_closest_node. generalize (key_nibbles k). intros l. eexists. destruct l; cbn [search_loop]; cbn [length Nat.eqb]; rewrite Rt; reflexivity.
Qed.
(** the answer is one given by a single reader and a map of preimages, unless something fails *)
Lemma ics_may ovf (k : list byte) o : honest H ap -> mayi' (get_with_ics23_proof_p H ovf k v) o ->
  (exists pre, o = get_with_ics23_proof H rd pre ovf k v /\ forall j, m !! H k = None -> pred_key m (H k) j \/ succ_key m (H k) j -> exists raw, pre j = Some raw /\ H raw = j /\ raw <> []) \/
  (failed o /\ (fl \/ m !! H k = None /\ exists j r, (pred_key m (H k) j \/ succ_key m (H k) j) /\ ap j r /\ forall raw, r <> Ok (Some raw))).
Proof using V An Av Avv.
  intros Ho M. destruct V as (St & _ & Hk). unfold get_with_ics23_proof_p in M. apply mayi_bind in M as (o1 & M1 & M). apply mayi_lift in M1.
  pose proof (set_excl H fl an av rd ver v m V An Av (H k) o1 M1) as [E1|[Fl F]]; [|right; split; [|by left]; destruct o1; [by destruct (F a)|by subst..]].
  rewrite get_with_exclusion_proof_p_ok in E1.
  destruct (m !! H k) as [x|] eqn:Ek.
  { left. exists (fun _ => None). split; [|by intros j Z]. unfold get_with_ics23_proof. rewrite <- E1. destruct o1 as [[[y p]|e]|e|]; [..|done].
    - rewrite bind_Ok. cbn beta iota. apply mayi_pure in M. destruct (to_ics23 H ovf k y p); [rewrite bind_Ok; by apply mayi_done_inv in M|exact M|exact M].
    - exfalso. destruct (view_proof H rd v m ver St Hk (H k)) as (n & _ & E). unfold get_with_exclusion_proof in E1. rewrite E, Ek, bind_Ok in E1. discriminate E1.
    - exact M. }
  destruct (decide (m = ∅)) as [Em|Ne].
  { destruct (excl_empty (H k) Em) as (e & Ee). rewrite Ee in E1. subst o1. cbn beta iota in M. subst o. left. exists (fun _ => None). split; [unfold get_with_ics23_proof; by rewrite Ee|].
    intros j _ [[[y E] _]|[[y E] _]]; rewrite Em in E; discriminate E. }
  destruct (view_proof H rd v m ver St Hk (H k)) as (n0 & _ & E0). destruct (view_bounds H rd v m ver St (H k) Ek Ne) as (l & r & Eb & Nl & Nr).
  assert (Eo : forall j, is_Some ((H <$> m) !! j) <-> is_Some (m !! j)) by (intros; rewrite lookup_fmap; apply fmap_is_Some).
  (* one neighbour *)
  assert (NB : forall pf j p x o, m !! j = Some x -> pred_key m (H k) j \/ succ_key m (H k) j -> get_with_proof H rd j v = Ok (Some x, p) -> mayi' (neighbour_p H ovf pf v p) o ->
    (exists raw ep, H raw = j /\ raw <> [] /\ o = Ok ep /\ forall pre, pre j = Some raw -> neighbour H rd pre ovf pf v p = Ok ep) \/
    (failed o /\ (fl \/ exists j r, (pred_key m (H k) j \/ succ_key m (H k) j) /\ ap j r /\ forall raw, r <> Ok (Some raw)))).
  { intros pf j p x o' Ej Nb Ep M'. destruct (view_leaf H rd v m ver St Hk j x Ej) as (n & T & E' & El). rewrite Ep in E'. injection E' as ->.
    destruct (neighbour_may H an av ap fl rd v Avv ovf pf _ _ o' El M') as [(raw & Ar & Eo')|[F Z]]; cbn [ln_key] in *.
    - destruct (Ho _ _ Ar) as [(raw' & [= <-] & Hr & Nraw)|[Z|Z]]; [|done|by destruct (Z (Some raw))]. left.
      destruct (neighbour_conv H (fun _ => Some raw) rd v m ver St Hk ovf pf j raw x Ej eq_refl Hr) as (p' & n' & E' & En & _). rewrite Ep in E'. injection E' as <-. rewrite (Eo' _ eq_refl).
      exists raw, (hexist H m raw x n'). split; [done|]. split; [done|]. split; [done|]. intros pre Epre. rewrite <- (Eo' pre Epre). by rewrite (Eo' (fun _ => Some raw) eq_refl).
    - right. split; [done|]. destruct Z as [Z|[Z|(r' & Ar & Z)]]; [by left|exfalso; rewrite Hk in Z; congruence|right; by exists j, r']. }
  assert (Bnd : get_with_exclusion_proof H rd (H k) v = match l, r with
     | Some lb, Some rb => '(_, lp) ← get_with_proof H rd lb v; '(_, rp) ← get_with_proof H rd rb v; Ok (inr (EPMiddle rp lp))
     | Some lb, None => '(_, lp) ← get_with_proof H rd lb v; Ok (inr (EPRightmost lp))
     | None, Some rb => '(_, rp) ← get_with_proof H rd rb v; Ok (inr (EPLeftmost rp))
     | None, None => Err (EOther "Invalid exclusion proof") end).
  { unfold get_with_exclusion_proof. rewrite E0, Ek, bind_Ok. cbn beta iota. rewrite Eb, bind_Ok. cbn beta iota. by destruct l, r. }
  destruct l as [kl|], r as [kr|]; try apply nearest_pred in Nl; try apply nearest_succ in Nr.
  - pose proof (or_introl Nl : pred_key m (H k) kl \/ succ_key m (H k) kl) as Bl. pose proof (or_intror Nr : pred_key m (H k) kr \/ succ_key m (H k) kr) as Br.
    assert (Xl : is_Some (m !! kl)) by apply Nl. assert (Xr : is_Some (m !! kr)) by apply Nr. destruct Xl as [xl Xl], Xr as [xr Xr].
    destruct (view_leaf H rd v m ver St Hk kl xl Xl) as (nl & _ & El & _). destruct (view_leaf H rd v m ver St Hk kr xr Xr) as (nr & _ & Er & _).
    rewrite El, Er, !bind_Ok in Bnd. cbn beta iota in Bnd. rewrite Bnd in E1. subst o1. cbn beta iota in M. apply mayi_bind in M as (o2 & M2 & M). cbn [exclusion_to_ics23_p] in M2. apply mayi_bind in M2 as (o3 & M3 & M2).
    destruct (NB _ _ _ _ _ Xr Br Er M3) as [(rawr & er & Hr & Nrr & -> & Pr)|[F Z]].
    2:{ right. split; [|by destruct Z as [Z|Z]; [left|right]]. destruct o3 as [a| |]; [by destruct (F a)|subst o2; by subst o..]. }
    apply mayi_bind in M2 as (o4 & M4 & M2). destruct (NB _ _ _ _ _ Xl Bl El M4) as [(rawl & el & Hl & Nrl & -> & Pl)|[F Z]].
    2:{ right. split; [|by destruct Z as [Z|Z]; [left|right]]. destruct o4 as [a| |]; [by destruct (F a)|subst o2; by subst o..]. }
    apply mayi_done_inv in M2 as ->. apply mayi_done_inv in M as ->. left.
    assert (Nlr : kr <> kl) by (intros ->; apply (key_lt_irrefl kl); eapply key_lt_trans; [apply Nl|apply Nr]).
    set (pre := fun j : key => if decide (j = kr) then Some rawr else if decide (j = kl) then Some rawl else None).
    assert (Er' : pre kr = Some rawr) by (unfold pre; by rewrite decide_True). assert (El' : pre kl = Some rawl) by (unfold pre; by rewrite decide_False, decide_True).
    exists pre. split.
    + unfold get_with_ics23_proof. rewrite Bnd, bind_Ok. cbn beta iota. cbn [exclusion_to_ics23]. by rewrite (Pr pre Er'), bind_Ok, (Pl pre El'), !bind_Ok.
    + intros j _ [Nj|Nj]; [exists rawl; assert (j = kl) as -> by (by eapply pred_key_unique)|exists rawr; assert (j = kr) as -> by (by eapply succ_key_unique)]; done.
  - pose proof (or_introl Nl : pred_key m (H k) kl \/ succ_key m (H k) kl) as Bl. assert (Xl : is_Some (m !! kl)) by apply Nl. destruct Xl as [xl Xl]. destruct (view_leaf H rd v m ver St Hk kl xl Xl) as (nl & _ & El & _).
    rewrite El, !bind_Ok in Bnd. cbn beta iota in Bnd. rewrite Bnd in E1. subst o1. cbn beta iota in M. apply mayi_bind in M as (o2 & M2 & M). cbn [exclusion_to_ics23_p] in M2. apply mayi_bind in M2 as (o4 & M4 & M2).
    destruct (NB _ _ _ _ _ Xl Bl El M4) as [(rawl & el & Hl & Nrl & -> & Pl)|[F Z]].
    2:{ right. split; [|by destruct Z as [Z|Z]; [left|right]]. destruct o4 as [a| |]; [by destruct (F a)|subst o2; by subst o..]. }
    apply mayi_done_inv in M2 as ->. apply mayi_done_inv in M as ->. left. exists (fun _ => Some rawl). split.
    + unfold get_with_ics23_proof. rewrite Bnd, bind_Ok. cbn beta iota. cbn [exclusion_to_ics23]. by rewrite (Pl (fun _ => Some rawl) eq_refl), !bind_Ok.
    + intros j _ [Nj|Nj]; [exists rawl; assert (j = kl) as -> by (by eapply pred_key_unique); done|]. exfalso. apply (Nr j); [apply Eo, Nj|apply Nj].
  - pose proof (or_intror Nr : pred_key m (H k) kr \/ succ_key m (H k) kr) as Br. assert (Xr : is_Some (m !! kr)) by apply Nr. destruct Xr as [xr Xr]. destruct (view_leaf H rd v m ver St Hk kr xr Xr) as (nr & _ & Er & _).
    rewrite Er, !bind_Ok in Bnd. cbn beta iota in Bnd. rewrite Bnd in E1. subst o1. cbn beta iota in M. apply mayi_bind in M as (o2 & M2 & M). cbn [exclusion_to_ics23_p] in M2. apply mayi_bind in M2 as (o4 & M4 & M2).
    destruct (NB _ _ _ _ _ Xr Br Er M4) as [(rawr & er & Hr & Nrr & -> & Pr)|[F Z]].
    2:{ right. split; [|by destruct Z as [Z|Z]; [left|right]]. destruct o4 as [a| |]; [by destruct (F a)|subst o2; by subst o..]. }
    apply mayi_done_inv in M2 as ->. apply mayi_done_inv in M as ->. left. exists (fun _ => Some rawr). split.
    + unfold get_with_ics23_proof. rewrite Bnd, bind_Ok. cbn beta iota. cbn [exclusion_to_ics23]. by rewrite (Pr (fun _ => Some rawr) eq_refl), !bind_Ok.
    + intros j _ [Nj|Nj]; [|exists rawr; assert (j = kr) as -> by (by eapply succ_key_unique); done]. exfalso. apply (Nl j); [apply Eo, Nj|apply Nj].
  - exfalso. apply map_choose in Ne as (j & x & Ej). assert (Ij : is_Some ((H <$> m) !! j)) by (apply Eo; by eexists).
    destruct (key_lt_total j (H k)) as [T|[Ej2|T]]; [by apply (Nl j Ij)| |by apply (Nr j Ij)]. rewrite Ej2 in Ej. congruence.
Qed.
(** ... that single answer is right, *)
Lemma answer_right pre ovf (k : list byte) y e : (forall j, m !! H k = None -> pred_key m (H k) j \/ succ_key m (H k) j -> exists raw, pre j = Some raw /\ H raw = j /\ raw <> []) ->
  get_with_ics23_proof H rd pre ovf k v = Ok (y, e) -> ics_right H m k y e.
Proof using V.
  intros K E. destruct V as (St & _ & Hk). destruct (m !! H k) as [x|] eqn:Ek.
  - destruct (view_present H pre rd v m ver St Hk ovf k x Ek) as (n & T & E'). rewrite E in E'. injection E' as -> ->. split; [by rewrite Ek|]. eexists. split; [done|]. intros Nk Nx. by apply hexist_verifies.
  - destruct (decide (m = ∅)) as [Em|Ne]; [destruct (excl_empty (H k) Em) as (er & Ee); unfold get_with_ics23_proof in E; by rewrite Ee in E|].
    destruct (view_reader H rd v m) as (_ & _ & _ & _ & _ & _ & P & _); [by exists ver|]. destruct (P (H k) Ek Ne) as (ep & Ee & _).
    pose proof E as E1. unfold get_with_ics23_proof in E1. rewrite Ee, bind_Ok in E1. cbn beta iota in E1. apply bind_inv' in E1 as (n & En & E1). injection E1 as <- <-. split; [by rewrite Ek|]. exists n. split; [done|]. intros Hv.
    destruct (view_nonexistence H pre rd v m ver St Hk ovf k) as (n' & E' & Nm & Vf); [|done|done|].
    { intros j x Ej Nb. split; [by eapply Hv|by apply K]. }
    rewrite E in E'. injection E' as <-. done.
Qed.
(** and there is one *)
Lemma answer_ok pre ovf (k : list byte) : (forall j, m !! H k = None -> pred_key m (H k) j \/ succ_key m (H k) j -> exists raw, pre j = Some raw /\ H raw = j) -> m <> ∅ ->
  exists y e, get_with_ics23_proof H rd pre ovf k v = Ok (y, e).
Proof using V.
  intros K Ne. destruct V as (St & _ & Hk). destruct (m !! H k) as [x|] eqn:Ek.
  { destruct (view_present H pre rd v m ver St Hk ovf k x Ek) as (n & _ & E'). eauto. }
  destruct (view_proof H rd v m ver St Hk (H k)) as (n0 & _ & E0). destruct (view_bounds H rd v m ver St (H k) Ek Ne) as (l & r & Eb & Nl & Nr).
  unfold get_with_ics23_proof, get_with_exclusion_proof. rewrite E0, Ek, bind_Ok. cbn beta iota. rewrite Eb, bind_Ok. cbn beta iota.
  assert (Eo : forall j, is_Some ((H <$> m) !! j) <-> is_Some (m !! j)) by (intros; rewrite lookup_fmap; apply fmap_is_Some).
  assert (NB : forall pf j, pred_key m (H k) j \/ succ_key m (H k) j -> exists x p ep, get_with_proof H rd j v = Ok (Some x, p) /\ neighbour H rd pre ovf pf v p = Ok ep).
  { intros pf j Nb. assert (Ij : is_Some (m !! j)) by (destruct Nb as [Nb|Nb]; apply Nb). destruct Ij as [x Ej]. destruct (K j eq_refl Nb) as (raw & Er & Hr).
    destruct (neighbour_conv H pre rd v m ver St Hk ovf pf j raw x Ej Er Hr) as (p & n & E & En & _). eauto. }
  destruct l as [kl|], r as [kr|]; try apply nearest_pred in Nl; try apply nearest_succ in Nr.
  - destruct (NB false kl (or_introl Nl)) as (xl & pl & el & -> & El). rewrite ?bind_Ok. cbn beta iota. destruct (NB false kr (or_intror Nr)) as (xr & pr & er & -> & Er). rewrite ?bind_Ok. cbn beta iota. rewrite ?bind_Ok. cbn beta iota.
    cbn [exclusion_to_ics23]. rewrite Er, bind_Ok, El, ?bind_Ok. eauto.
  - destruct (NB false kl (or_introl Nl)) as (xl & pl & el & -> & El). rewrite ?bind_Ok. cbn beta iota. rewrite ?bind_Ok. cbn beta iota. cbn [exclusion_to_ics23]. rewrite El, ?bind_Ok. eauto.
  - destruct (NB true kr (or_intror Nr)) as (xr & pr & er & -> & Er). rewrite ?bind_Ok. cbn beta iota. rewrite ?bind_Ok. cbn beta iota. cbn [exclusion_to_ics23]. rewrite Er, ?bind_Ok. eauto.
  - exfalso. apply map_choose in Ne as (j & x & Ej). assert (Ij : is_Some ((H <$> m) !! j)) by (apply Eo; by eexists).
    destruct (key_lt_total j (H k)) as [T|[Ej2|T]]; [by apply (Nl j Ij)| |by apply (Nr j Ij)]. rewrite Ej2 in Ej. congruence.
Qed.
(** whatever fails, an answer is right *)
Lemma ics_true ovf (k : list byte) y e : honest H ap -> mayi' (get_with_ics23_proof_p H ovf k v) (Ok (y, e)) -> ics_right H m k y e.
Proof using V An Av Avv.
  intros Ho M. destruct (ics_may ovf k _ Ho M) as [(pre & E & K)|[F _]]; [|by destruct (F (y, e))]. eapply answer_right; [|by symmetry]. exact K.
Qed.
(** if nothing fails and the preimages of the neighbours are known, there is an answer *)
Lemma ics_answers ovf (k : list byte) o : ~ fl -> honest H ap -> knows H ap m (H k) -> m <> ∅ -> mayi' (get_with_ics23_proof_p H ovf k v) o -> exists y e, o = Ok (y, e) /\ ics_right H m k y e.
Proof using V An Av Avv.
  intros Nf Ho Kn Ne M. destruct (ics_may ovf k _ Ho M) as [(pre & E & K)|[_ [Fl|(_ & j & r & Nb & Ar & Z)]]]; [|done|].
  - destruct (answer_ok pre ovf k) as (y & e & E'); [|done|].
    { intros j Ej Nb. destruct (K j Ej Nb) as (raw & ? & ? & _). by exists raw. }
    exists y, e. rewrite E, E'. split; [done|]. eapply answer_right; [exact K|exact E'].
  - exfalso. destruct (Kn j r Ar Nb) as (raw & Er & _). by apply (Z raw).
Qed.
End core.

Section c100.
Context (H : list byte -> bytes32) {T : Type}.
Context (rd : T -> reader) (write : T -> tree_batch -> outcome T) (prune : T -> version -> outcome T)
  (wnb : T -> gmap nodekey node -> gmap (version * key) (option value) -> outcome T) (held : T -> holding).
Context (C : conforms rd write prune held) (CR : conforms_restore rd wnb held).
Notation b_in_use := (b_in_use H rd write prune wnb held).
Notation b_passes := (b_passes H rd write prune held).
Notation bp_any := (bp_any H rd write prune held).

(** *** C100 *)
(** A version that is kept, every request answered from any state the store passes through: if the preimages of the neighbours of the key are known and requests do not fail, there is an answer,
    and it is right. *)
Theorem C100_requests ovf n f c s v (k : list byte) ap o : b_in_use n f c s -> (f <= v)%N -> (v < n)%N -> c v <> ∅ -> honest H ap -> knows H ap (c v) (H k) ->
  mayi (b_node rd (b_passes n f s v)) (b_value rd (b_passes n f s v)) ap (get_with_ics23_proof_p H ovf k v) o -> exists y e, o = Ok (y, e) /\ ics_right H (c v) k y e.
Proof using C CR.
  intros U L1 L2 Ne Ho Kn M. destruct (b_settle H rd write prune wnb held C CR n f c s v U L1 L2) as (ver & V & G).
  destruct (G False (b_node rd (b_passes n f s v)) (b_value rd (b_passes n f s v))) as (An & Av & Avv); [by left|by left|].
  exact (ics_answers H False _ _ ap _ ver v (c v) V An Av Avv ovf k o (fun z => z) Ho Kn Ne M).
Qed.
(** Any version ever committed, purged or not, and requests that may fail: an answer is right. *)
Theorem C100_true ovf (ops : list op) (v : version) (k : list byte) ap y e : (v < num_versions ops)%N -> honest H ap ->
  mayi (b_node_or_fail rd (bp_any ops)) (b_value_or_fail rd (bp_any ops)) ap (get_with_ics23_proof_p H ovf k v) (Ok (y, e)) -> ics_right H (contents_at (history ops) v) k y e.
Proof using C.
  intros Lv Ho M. destruct (bp_settle H rd write prune held C ops v Lv) as (ver & r0 & V & An & Av & Avv).
  exact (ics_true H True _ _ ap r0 ver v _ V An Av Avv ovf k y e Ho M).
Qed.
Theorem C100_true_in_use ovf n f c s v (k : list byte) ap y e : b_in_use n f c s -> (f <= v)%N -> (v < n)%N -> honest H ap ->
  mayi (b_node_or_fail rd (b_passes n f s v)) (b_value_or_fail rd (b_passes n f s v)) ap (get_with_ics23_proof_p H ovf k v) (Ok (y, e)) -> ics_right H (c v) k y e.
Proof using C CR.
  intros U L1 L2 Ho M. destruct (b_settle H rd write prune wnb held C CR n f c s v U L1 L2) as (ver & V & G).
  destruct (G True (b_node_or_fail rd (b_passes n f s v)) (b_value_or_fail rd (b_passes n f s v))) as (An & Av & Avv); [intros nk r [?|F]; [by left|by right]|intros w j r [?|F]; [by left|by right]|].
  exact (ics_true H True _ _ ap _ ver v (c v) V An Av Avv ovf k y e Ho M).
Qed.
(** The store at rest, read by the function itself (C43 for every store in use): present keys ... *)
Theorem C100_serves ovf n f c s v (k : list byte) (pre : key -> option (list byte)) : b_in_use n f c s -> (f <= v)%N -> (v < n)%N ->
  (forall x, c v !! H k = Some x -> exists e, get_with_ics23_proof H (rd s) pre ovf k v = Ok (Some x, e) /\ (k <> [] -> x <> [] -> verify_membership H ics23_spec (b32 (smt_root H (c v))) k x e = true)) /\
  (c v !! H k = None -> c v <> ∅ -> neighbours_known H pre (c v) (H k) -> exists n, get_with_ics23_proof H (rd s) pre ovf k v = Ok (None, CPNonexist n) /\ ics_names H (c v) k n /\
    verify_non_membership H ics23_spec (b32 (smt_root H (c v))) k (CPNonexist n) = true).
Proof using C CR.
  intros U L1 L2. destruct (b_refines H rd write prune wnb held C CR _ _ _ _ U) as (t & Ut & K). destruct (kept_view H rd write prune held C n f c t s v Ut K L1 L2) as (ver & St & _ & Hk). split.
  - intros x Ek. destruct (view_present H pre _ v (c v) ver St Hk ovf k x Ek) as (m & Tm & E). eexists. split; [exact E|]. intros Nk Nx. by apply hexist_verifies.
  - intros Ek Ne Kn. by apply (view_nonexistence H pre _ v (c v) ver St Hk ovf k Kn).
Qed.
End c100.
(** Any reader whatever, and a map of preimages: if requests fail, the result is the one without the failures, or there is none. *)
Theorem C100_fail (H : list byte -> bytes32) ovf (rd : reader) (pre : key -> option (list byte)) (v : version) (k : list byte) o :
  mayi (flaky_node rd) (flaky_value rd) (flaky_pre pre) (get_with_ics23_proof_p H ovf k v) o -> equal_or_fails _ o (get_with_ics23_proof H rd pre ovf k v).
Proof.
  assert (Avv : forall w j r, flaky_value rd w j r -> r = Ok (rd_value rd w j) \/ (True /\ failed r)) by (intros w j r [->|F]; [by left|by right]).
  intros M. unfold get_with_ics23_proof_p in M. apply mayi_bind in M as (o1 & M1 & M). apply mayi_lift in M1.
  destruct (C72_queries H rd v) as (_ & _ & _ & _ & _ & Q & _). destruct (Q _ _ M1) as [E1|F]; [|right; destruct o1; [by destruct (F a)|by subst..]]. unfold get_with_ics23_proof. rewrite <- E1.
  assert (NB : forall pf p o, mayi (flaky_node rd) (flaky_value rd) (flaky_pre pre) (neighbour_p H ovf pf v p) o -> equal_or_fails _ o (neighbour H rd pre ovf pf v p)).
  { clear -Avv. intros pf p o M. destruct (p_leaf p) as [l|] eqn:El; [|right; unfold neighbour_p in M; rewrite El in M; apply mayi_pure in M; cbn in M; by subst].
    destruct (neighbour_may H _ _ _ True rd v (Avv v) ovf pf p l o El M) as [(raw & [Er|F] & E)|[F _]]; [|by destruct (F (Some raw))|by right]. left. apply E. by injection Er. }
  destruct o1 as [[[x p]|e]|e|]; [..|by left|by left].
  - rewrite bind_Ok. cbn beta iota in *. apply mayi_pure in M. destruct (to_ics23 H ovf k x p); [rewrite bind_Ok; apply mayi_done_inv in M; by left|by left|by left].
  - rewrite bind_Ok. cbn beta iota in *. apply mayi_bind in M as (o2 & M2 & M).
    assert (E2 : equal_or_fails _ o2 (exclusion_to_ics23 H rd pre ovf k v e)).
    { destruct e as [r|r l|l]; cbn [exclusion_to_ics23_p exclusion_to_ics23] in *; apply mayi_bind in M2 as (o3 & M3 & M2); (destruct (NB _ _ _ M3) as [->|F]; [|right; destruct o3 as [a| |]; [by destruct (F a)|by subst..]]).
      - destruct (neighbour H rd pre ovf true v r); [rewrite bind_Ok; apply mayi_done_inv in M2; by left|by left|by left].
      - destruct (neighbour H rd pre ovf false v r); [rewrite bind_Ok|by left|by left]. apply mayi_bind in M2 as (o4 & M4 & M2). destruct (NB _ _ _ M4) as [->|F]; [|right; destruct o4 as [b| |]; [by destruct (F b)|by subst..]].
        destruct (neighbour H rd pre ovf false v l); [rewrite bind_Ok; apply mayi_done_inv in M2; by left|by left|by left].
      - destruct (neighbour H rd pre ovf false v l); [rewrite bind_Ok; apply mayi_done_inv in M2; by left|by left|by left]. }
    destruct E2 as [->|F]; [|right; destruct o2 as [b| |]; [by destruct (F b)|by subst..]]. destruct (exclusion_to_ics23 H rd pre ovf k v e); [rewrite bind_Ok; apply mayi_done_inv in M; by left|by left|by left].
Qed.

(** *** A concrete case: on the archiving store of ThmBackend.v, the two entries of ThmIcs.v, then one of them replaced; each other request of the query about the first version finds the store
    before and after that. *)
Fixpoint alternate_i (r1 r2 : reader) (pre : key -> option (list byte)) {A} (p : iprog A) : outcome A :=
  match p with
  | IDone o => o
  | INode nk k => alternate_i r2 r1 pre (k (Ok (rd_node r1 nk)))
  | IValue w x k => alternate_i r2 r1 pre (k (Ok (rd_value r1 w x)))
  | IPre x k => alternate_i r2 r1 pre (k (Ok (pre x)))
  end.
Lemma alternate_i_may an av (ap : key -> outcome (option (list byte)) -> Prop) pre {A} (p : iprog A) : forall r1 r2, (forall nk, an nk (Ok (rd_node r1 nk)) /\ an nk (Ok (rd_node r2 nk))) -> (forall w k, av w k (Ok (rd_value r1 w k)) /\ av w k (Ok (rd_value r2 w k))) ->
  (forall x, ap x (Ok (pre x))) -> mayi an av ap p (alternate_i r1 r2 pre p).
Proof.
  induction p as [o|nk k IH|w x k IH|x k IH]; intros r1 r2 An Av Ap; cbn [alternate_i]; [constructor|..].
  - eapply mayi_node; [apply (proj1 (An _))|]. apply IH; [intros nk'; destruct (An nk'); by split|intros w k'; destruct (Av w k'); by split|done].
  - eapply mayi_value; [apply (proj1 (Av _ _))|]. apply IH; [intros nk'; destruct (An nk'); by split|intros w' k'; destruct (Av w' k'); by split|done].
  - eapply mayi_pre; [apply Ap|]. apply IH; [intros nk'; destruct (An nk'); by split|intros w' k'; destruct (Av w' k'); by split|done].
Qed.
Definition icsmore : list op := [Commit [[(yot rawa, Some vc)]]].
Definition icspre_answers (j : key) (r : outcome (option (list byte))) : Prop := r = Ok (icspre j).
Lemma icspre_cases j : (exists raw, icspre j = Some raw /\ yot raw = j /\ raw <> []) \/ icspre j = None.
Proof.
  unfold icspre. destruct (decide (j = yot rawa)) as [Da|_]; [left; exists rawa; rewrite Da; split; [reflexivity|split; [reflexivity|discriminate]]|].
  destruct (decide (j = yot rawb)) as [Db|_]; [left; exists rawb; rewrite Db; split; [reflexivity|split; [reflexivity|discriminate]]|right; reflexivity].
Qed.
Lemma icspre_honest : honest yot icspre_answers.
Proof.
  intros j r E. unfold icspre_answers in E. destruct (icspre_cases j) as [(raw & Er & Hr & Nr)|Er]; rewrite Er in E.
  - left. exists raw. exact (conj E (conj Hr Nr)).
  - right. left. exact E.
Qed.
Lemma icspre_knows : knows yot icspre_answers icsm (yot rawc).
Proof.
  intros j r E Nb. unfold icspre_answers in E. pose proof (proj1 ics_demo_preimages) as K. assert (Ij : is_Some (icsm !! j)) by (destruct Nb as [Nb|Nb]; exact (proj1 Nb)). destruct Ij as [x Ej].
  destruct (K j x Ej) as (_ & raw & Er & Hr & Nr). rewrite Er in E. exists raw. exact (conj E (conj Hr Nr)).
Qed.
Theorem demo_icsreq : exists s ys s1 zs, brun_from yot ark_reader archive_write (archive_prune 0) (Held ∅ ∅ ∅) 0 icsops = Ok (s, ys) /\ brun_from yot ark_reader archive_write (archive_prune 0) s 1 icsmore = Ok (s1, zs) /\
  b_in_use yot ark_reader archive_write (archive_prune 0) ark_wnb id 1 0 (later 0 (fun _ => ∅) icsops) s /\ later 0 (fun _ => ∅) icsops 0%N = icsm /\
  honest yot icspre_answers /\ knows yot icspre_answers icsm (yot rawc) /\
  (let P := b_passes yot ark_reader archive_write (archive_prune 0) id 1 0 s 0 in
   forall A (p : iprog A), mayi (b_node ark_reader P) (b_value ark_reader P) icspre_answers p (alternate_i (ark_reader s) (ark_reader s1) icspre p)) /\
  (exists e, alternate_i (ark_reader s) (ark_reader s1) icspre (get_with_ics23_proof_p yot true rawc 0) = Ok (None, CPNonexist e) /\ (is_Some (ne_left e) \/ is_Some (ne_right e))) /\
  (exists e, alternate_i (ark_reader s) (ark_reader s1) icspre (get_with_ics23_proof_p yot true rawa 0) = Ok (Some va, CPExist e)) /\
  (exists e, runi (ark_reader s) (fun _ => None) (get_with_ics23_proof_p yot true rawc 0) = Err e).
Proof.
  assert (E : match brun_from yot ark_reader archive_write (archive_prune 0) (Held ∅ ∅ ∅) 0 icsops with Ok (s, _) => match brun_from yot ark_reader archive_write (archive_prune 0) s 1 icsmore with Ok (s1, _) =>
      match alternate_i (ark_reader s) (ark_reader s1) icspre (get_with_ics23_proof_p yot true rawc 0), alternate_i (ark_reader s) (ark_reader s1) icspre (get_with_ics23_proof_p yot true rawa 0),
        runi (ark_reader s) (fun _ => None) (get_with_ics23_proof_p yot true rawc 0) with
      | Ok (None, CPNonexist e), Ok (Some x, CPExist e'), Err er => bool_decide (x = va) && (bool_decide (is_Some (ne_left e)) || bool_decide (is_Some (ne_right e))) | _, _, _ => false end
    | _ => false end | _ => false end = true) by (vm_compute; reflexivity).
  destruct (brun_from yot ark_reader archive_write (archive_prune 0) (Held ∅ ∅ ∅) 0 icsops) as [[s ys]| |] eqn:R; [|discriminate E..].
  destruct (brun_from yot ark_reader archive_write (archive_prune 0) s 1 icsmore) as [[s1 zs]| |] eqn:R1; [|discriminate E..]. exists s, ys, s1, zs. split; [reflexivity|]. split; [exact R1|].
  split; [exact (b_more yot ark_reader archive_write (archive_prune 0) ark_wnb id 0 0 _ _ icsops s ys (b_empty yot ark_reader archive_write (archive_prune 0) ark_wnb id (Held ∅ ∅ ∅) eq_refl) R)|].
  split; [apply (bool_decide_eq_true_1 _); vm_compute; reflexivity|].
  split; [exact icspre_honest|]. split; [exact icspre_knows|].
  split.
  { intros P A p. assert (P0 : P s) by (apply (bp_between yot ark_reader archive_write (archive_prune 0) id 1 0 s 0 [] s []); [reflexivity|cbn; lia]).
    assert (P1 : P s1) by (apply (bp_between yot ark_reader archive_write (archive_prune 0) id 1 0 s 0 icsmore s1 zs R1); vm_compute; discriminate). clear E R R1.
    apply alternate_i_may; [intros nk; split; [exists s|exists s1]; (split; [assumption|reflexivity])|intros w k; split; [exists s|exists s1]; (split; [assumption|reflexivity])|intros x; reflexivity]. }
  destruct (alternate_i (ark_reader s) (ark_reader s1) icspre (get_with_ics23_proof_p yot true rawc 0)) as [[[y|] [e|e]]| |]; [discriminate E|discriminate E|discriminate E| |discriminate E|discriminate E].
  destruct (alternate_i (ark_reader s) (ark_reader s1) icspre (get_with_ics23_proof_p yot true rawa 0)) as [[[y|] [e'|e']]| |]; [|discriminate E|discriminate E|discriminate E|discriminate E|discriminate E].
  destruct (runi (ark_reader s) (fun _ => None) (get_with_ics23_proof_p yot true rawc 0)) as [z|er|]; [discriminate E| |discriminate E]. clear R R1.
  apply andb_prop in E as [E1 E2]. apply bool_decide_eq_true_1 in E1 as ->. split; [|split; [by exists e'|by exists er]]. exists e. split; [done|]. apply orb_prop in E2 as [E2|E2]; apply bool_decide_eq_true_1 in E2; [by left|by right].
Qed.
