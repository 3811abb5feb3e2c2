(** C104: a restore fed by peers that need not be honest. *)
From Coq Require Import Strings.String.
From Verif Require Import Base Spec SpecOrder SpecRange NodeType ProofDef TreeCache Tree Mock Driver Restore KeyFacts SmtFacts ProofFacts Canon PutFacts KeyOrder OrderFacts ValueFacts ReadFacts DriverFacts ThmProof ThmStore ThmStore2 Demo RangeFacts ThmRange
  RestoreFacts RestoreFacts2 RestoreVerify RestoreTop RestoreRec RestoreDriver RestoreRun ThmRestore Toy ToyRestore.
From Coq Require Import Lia.
Local Opaque Spec.smt root_inputs ms_in.

(** *** A careful client of a restore (RestoreDriver.v: [client], [one_call]).  It knows the root hash of the snapshot and asks anybody; a message is a chunk with a proof.  An accepted chunk is kept; when a
    chunk is refused, or the call panics, the restore is opened again on the store (which the call has not changed). *)
Section client.
Context (H : list byte -> bytes32) (ovf : bool).
Definition message : Type := list (key * value) * range_proof.
Definition careful_call (v : version) (root : hash) (c : client) (msg : message) : outcome (client * bool) :=
  match one_call H ovf v root c (Add msg.1 msg.2) with
  | Ok (c', true) => Ok (c', true)
  | _ => one_call H ovf v root c Reopen
  end.
Fixpoint careful_calls (v : version) (root : hash) (c : client) (msgs : list message) : outcome client :=
  match msgs with
  | [] => Ok c
  | msg :: msgs' => '(c, _) ← careful_call v root c msg; careful_calls v root c msgs'
  end.
Definition careful_run (v : version) (root : hash) (msgs : list message) : outcome client :=
  rs ← restore_new H store_empty v root; careful_calls v root (Client rs ∅ None []) msgs.
(** what the client lacks of the snapshot *)
Definition missing (m : gmap key value) (c : client) : list (key * value) := filter (fun e => cl_given c !! e.1 = None) (entries m).
End client.

Section proofs.
Context (H : list byte -> bytes32) (ovf : bool) (v : version) (m : gmap key value).
Definition tidy (c : client) : Prop := exists Y, hobj H v m (cl_obj c) (cl_given c) Y /\ cl_last c = ln_key <$> rs_prev (cl_obj c).
Lemma careful_tidy c msg : tidy c -> exists c' b, careful_call H ovf v (smt_root H m) c msg = Ok (c', b) /\
  (exists l, cl_hashed c' = cl_hashed c ++ l) /\ (tidy c' \/ hash_broken H (root_inputs H m ++ cl_hashed c')).
Proof.
  intros (Y & Ho & El). unfold careful_call.
  assert (R : exists c' b, one_call H ovf v (smt_root H m) c Reopen = Ok (c', b) /\ (exists l, cl_hashed c' = cl_hashed c ++ l) /\ (tidy c' \/ hash_broken H (root_inputs H m ++ cl_hashed c'))).
  { pose proof Ho as (_ & G & _). destruct (reopen_hobj H v m _ _ G) as (rs1 & X1 & E1 & Ho1 & Ea & Ex & Es). cbn [one_call]. rewrite E1, bind_Ok. eexists _, _. split; [reflexivity|]. split; [exists []; cbn; by rewrite app_nil_r|]. left.
    exists Y. cbn [cl_obj cl_given cl_last]. apply restore_new_prev in E1 as [Pv _]. split; [|rewrite Pv; by destruct (store_rightmost (rs_store (cl_obj c))) as [[? ?]|]].
    assert (Eh : st_history (rs_store (cl_obj c)) = hist1 v Y). { destruct G as [(-> & _ & ->)|(rs0 & k & _ & _ & V & <- & _)]; [unfold hist1; by rewrite fmap_empty|apply V]. }
    match goal with |- hobj _ _ _ _ ?G _ => replace G with X1 end; [done|]. rewrite Ex. destruct (store_rightmost (rs_store (cl_obj c))) as [[nk l]|]; [|done].
    rewrite Eh. f_equal. apply map_eq. intros k. unfold hist1. rewrite lookup_omap, lookup_fmap. by destruct (Y !! k). }
  destruct (one_call H ovf v (smt_root H m) c (Add msg.1 msg.2)) as [[c' [|]]| |] eqn:E; [|exact R..]. exists c', true. split; [done|]. split; [by eapply hashed_grows|].
  assert (G : cgood H v m c) by (exists Y; split; [by apply hobj_obj|done]). destruct (one_call_ok H v m ovf c _ c' true G E) as [[(Y' & _ & El') S]|B]; [left|by right].
  destruct (S eq_refl) as (k & _ & Sy). exists (cl_given c'). split; [|done]. pose proof (synced_obj H v m _ _ _ Sy) as (A1 & A2 & _). split; [done|]. split; [done|].
  split; [destruct Sy as (_ & _ & _ & _ & Up); by eapply upto_below|]. right. split; [done|]. by exists k.
Qed.
Lemma rest_inj X X' : below m X -> below m X' -> rest_of m X = rest_of m X' -> X = X'.
Proof.
  assert (G : forall Z, below m Z -> forall k x, Z !! k = Some x <-> m !! k = Some x /\ (k, x) ∉ rest_of m Z).
  { intros Z [B _] k x. split.
    - intros E. split; [eapply lookup_weaken; done|]. intros [_ N]%rest_elem. congruence.
    - intros [E N]. destruct (Z !! k) as [y|] eqn:Ez; [pose proof (lookup_weaken _ _ _ _ Ez B); congruence|]. destruct N. by apply rest_elem. }
  intros B B' E. apply map_eq. intros k. apply option_eq. intros x. by rewrite (G X B), (G X' B'), E.
Qed.
Lemma honest_call c n k x src vs : nb H (H <$> m) -> tidy c -> source_ok H m src vs -> last (take (n + 1) (missing m c)) = Some (k, x) ->
  exists p c', get_range_proof H src k vs = Ok p /\ careful_call H ovf v (smt_root H m) c (take (n + 1) (missing m c), p) = Ok (c', true) /\ missing m c' = drop (n + 1) (missing m c) /\ tidy c'.
Proof.
  intros NB (Y & Ho & El) So Hl. change (missing m c) with (rest_of m (cl_given c)) in *. set (rest := rest_of m (cl_given c)) in *.
  assert (Ekx : m !! k = Some x).
  { apply last_Some in Hl as [l' Hl]. apply (rest_elem m (cl_given c) k x). fold rest. rewrite <- (take_drop (n + 1) rest), Hl. apply elem_of_app. left. apply elem_of_app. right. by left. }
  destruct (So k x Ekx) as (p & j & Ep & T & Es).
  destruct (add_honest H v m ovf _ _ Y (take (n + 1) rest) (drop (n + 1) rest) k x p j NB Ho (eq_sym (take_drop _ _)) Hl T Es) as (rs1 & X1 & E1 & Ho1 & Er1).
  assert (Nc : take (n + 1) rest <> []) by (intros Z; by rewrite Z in Hl).
  destruct (push_honest H v m _ _ Y (take (n + 1) rest) (drop (n + 1) rest) Ho (eq_sym (take_drop _ _)) Nc) as (rs2 & _ & Et). rewrite <- El in Et.
  destruct (add_obj H v m ovf _ _ _ _ _ _ _ (hobj_obj _ _ _ _ _ _ Ho) E1) as [Pv _]. rewrite <- El, Et in Pv.
  destruct (rest_step m (cl_given c) (take (n + 1) rest) (drop (n + 1) rest)) as [B2 Er2]; [apply Ho|fold rest; symmetry; apply take_drop|].
  exists p. eexists. split; [done|]. unfold careful_call. cbn [one_call fst snd]. rewrite E1, bind_Ok. split; [reflexivity|].
  unfold missing. cbn [cl_given]. rewrite Et. split; [exact Er2|]. exists X1. cbn [cl_obj cl_given cl_last]. split; [|by rewrite Pv].
  change (insert_all (take (n + 1) rest) (cl_given c)) with (fold_left ins (take (n + 1) rest) (cl_given c)). rewrite (rest_inj _ X1 B2); [done|apply Ho1|]. by rewrite Er1.
Qed.
Lemma careful_app msgs1 msgs2 : forall c, careful_calls H ovf v (smt_root H m) c (msgs1 ++ msgs2) = (c ← careful_calls H ovf v (smt_root H m) c msgs1; careful_calls H ovf v (smt_root H m) c msgs2).
Proof. induction msgs1 as [|x l IH]; intros c; cbn [app careful_calls]; [done|]. destruct (careful_call H ovf v _ c x) as [[c1 b]| |]; [rewrite !bind_Ok; apply IH|done|done]. Qed.
Lemma careful_calls_ok msgs : forall c, tidy c -> (exists c', careful_calls H ovf v (smt_root H m) c msgs = Ok c' /\ tidy c') \/
  exists l1 l2 c', msgs = l1 ++ l2 /\ careful_calls H ovf v (smt_root H m) c l1 = Ok c' /\ hash_broken H (root_inputs H m ++ cl_hashed c').
Proof.
  induction msgs as [|x l IH]; intros c T; cbn [careful_calls]; [left; by exists c|]. destruct (careful_tidy c x T) as (c1 & b & E & _ & [T1|B]); rewrite E, bind_Ok.
  - destruct (IH c1 T1) as [?|(l1 & l2 & c' & -> & E' & B)]; [by left|right]. exists (x :: l1), l2, c'. cbn [careful_calls]. rewrite E, bind_Ok. by split.
  - right. exists [x], l, c1. cbn [careful_calls]. rewrite E, bind_Ok. by split.
Qed.
Lemma careful_run_ok msgs : (exists c, careful_run H ovf v (smt_root H m) msgs = Ok c /\ tidy c) \/
  exists l1 l2 c, msgs = l1 ++ l2 /\ careful_run H ovf v (smt_root H m) l1 = Ok c /\ hash_broken H (root_inputs H m ++ cl_hashed c).
Proof.
  unfold careful_run. destruct (start_hobj H v m) as (rs0 & E0 & Ho & Ep). rewrite E0.
  destruct (careful_calls_ok msgs (Client rs0 ∅ None [])) as [(c & E & T)|(l1 & l2 & c & -> & E & B)]; [exists ∅; split; [done|cbn; by rewrite Ep]|left; by exists c|right; by exists l1, l2, c].
Qed.
End proofs.

Section thm.
Context (H : list byte -> bytes32).
(** *** C104: whatever anybody sends, and however often the client starts again: what it has accepted is a part of the snapshot (the entries up to some key), and
    - when nothing is missing, [finish] leaves a tree that reads as the snapshot;
    - when something is missing, any honest server that has a version with the same contents (whatever its own history) can supply the next [n + 1] entries, and they are accepted;
    or else a collision of the hash function is exhibited among the inputs hashed for the root and for the chunks accepted so far. *)
Theorem C104_untrusted_peers (ovf : bool) (ops : list op) st xs (vs v : version) (root : hash) (msgs : list message) :
  run H ops = Ok (st, xs) -> readable ops vs -> get_root_hash H (store_reader st) vs = Ok root -> let m := contents_at (history ops) vs in m <> ∅ ->
  (exists c, careful_run H ovf v root msgs = Ok c /\
    (forall k x, cl_given c !! k = Some x -> m !! k = Some x) /\
    (forall k k', is_Some (cl_given c !! k) -> is_Some (m !! k') -> key_le k' k -> is_Some (cl_given c !! k')) /\
    (missing m c = [] -> exists s, finish H (cl_obj c) = Ok s /\ same_tree H s v st vs) /\
    (forall n k x ops' st' xs' vs', run H ops' = Ok (st', xs') -> readable ops' vs' -> contents_at (history ops') vs' = m -> last (take (n + 1) (missing m c)) = Some (k, x) ->
      exists p c', get_range_proof H (store_reader st') k vs' = Ok p /\ careful_call H ovf v root c (take (n + 1) (missing m c), p) = Ok (c', true) /\ missing m c' = drop (n + 1) (missing m c))) \/
  exists msgs1 msgs2 c, msgs = msgs1 ++ msgs2 /\ careful_run H ovf v root msgs1 = Ok c /\ hash_broken H (root_inputs H m ++ cl_hashed c).
Proof.
  intros R L Er m Nm. destruct (read_root H ops st xs vs R L) as [Er' _]. fold m in Er'. rewrite Er' in Er. apply Ok_inj in Er. subst root.
  destruct (nb_dec H (H <$> m)) as [NB|(x & Hx & Ex)].
  2:{ right. destruct (start_hobj H v m) as (rs0 & E0 & _). exists [], msgs, (Client rs0 ∅ None []). split; [done|]. unfold careful_run. rewrite E0, bind_Ok. split; [done|]. right. exists x. split; [|done].
      apply elem_of_app. left. by apply ms_in_root. }
  destruct (careful_run_ok H ovf v m msgs) as [(c & E & Y & Ho & El)|B]; [left|by right]. exists c. split; [done|]. pose proof Ho as (_ & _ & [B1 B2] & _).
  split; [intros k x Hk; eapply lookup_weaken; done|]. split; [intros k k' A1 A2 A3; eapply B2; done|]. split.
  - intros Ee. destruct (finish_honest H v m _ _ Y Nm Ho Ee) as (s & Ef & C & Eh). exists s. split; [done|]. by eapply (restored_same H m).
  - intros n k x ops' st' xs' vs' R' L' Em Hl. pose proof (source_run H ops' st' xs' vs' R' L') as So. rewrite Em in So.
    destruct (honest_call H ovf v m c n k x (store_reader st') vs' NB) as (p & c' & Ep & Ec & Ed & _); [by exists Y|done|done|]. by exists p, c'.
Qed.
(** ... so one honest answer completes the restore, whatever came before. *)
Theorem C104_completes (ovf : bool) (ops : list op) st xs (vs v : version) (root : hash) (msgs : list message) :
  run H ops = Ok (st, xs) -> readable ops vs -> get_root_hash H (store_reader st) vs = Ok root -> let m := contents_at (history ops) vs in m <> ∅ ->
  (exists final c s, length final <= 1 /\ careful_run H ovf v root (msgs ++ final) = Ok c /\ missing m c = [] /\ finish H (cl_obj c) = Ok s /\ same_tree H s v st vs) \/
  exists msgs1 msgs2 c, msgs = msgs1 ++ msgs2 /\ careful_run H ovf v root msgs1 = Ok c /\ hash_broken H (root_inputs H m ++ cl_hashed c).
Proof.
  intros R L Er m Nm. destruct (C104_untrusted_peers ovf ops st xs vs v root msgs R L Er Nm) as [(c & E & _ & _ & F & _)|B]; [|by right]. fold m in F.
  destruct (missing m c) as [|e0 l0] eqn:Em; [left; destruct (F eq_refl) as (s & Ef & S); exists [], c, s; rewrite app_nil_r; cbn; by (split; [lia|])|].
  assert (Le : length (missing m c) <= size m). { unfold missing. etrans; [apply filter_length|]. by rewrite entries_length. }
  destruct (last (missing m c)) as [[k x]|] eqn:El; [|apply last_None in El; congruence].
  destruct (read_root H ops st xs vs R L) as [Er' _]. fold m in Er'. rewrite Er' in Er. apply Ok_inj in Er. subst root.
  destruct (careful_run_ok H ovf v m msgs) as [(c0 & E0 & T)|B]; [|by right]. rewrite E in E0. apply Ok_inj in E0. subst c0.
  destruct (nb_dec H (H <$> m)) as [NB|(y & Hy & Ey)].
  2:{ right. exists msgs, [], c. rewrite app_nil_r. split; [done|]. split; [done|]. right. exists y. split; [|done]. apply elem_of_app. left. by apply ms_in_root. }
  destruct (honest_call H ovf v m c (size m) k x (store_reader st) vs NB T) as (p & c' & Ep & Ec & Ed & T'); [by apply source_run with (1 := R)|rewrite take_ge by lia; exact El|].
  rewrite drop_ge in Ed by lia. left. destruct T' as (Y' & Ho' & El'). destruct (finish_honest H v m _ _ Y' Nm Ho' Ed) as (s & Ef & C & Eh).
  exists [(take (size m + 1) (missing m c), p)], c', s. split; [cbn; lia|]. split.
  { unfold careful_run in *. destruct (restore_new H store_empty v (smt_root H m)) as [rs0| |]; [|done|done]. rewrite bind_Ok in *. rewrite careful_app, E, bind_Ok. cbn [careful_calls]. by rewrite Ec, bind_Ok. }
  split; [done|]. split; [done|]. by eapply (restored_same H m).
Qed.
End thm.

(** *** Applied to the demo history, for every hash function, with three messages of which nothing is assumed. *)
Theorem demo_peers (H : list byte -> bytes32) ovf st xs root v (a b c : message) : run H demo = Ok (st, xs) -> get_root_hash H (store_reader st) 4 = Ok root ->
  (exists final c' s, length final <= 1 /\ careful_run H ovf v root ([a; b; c] ++ final) = Ok c' /\ missing demo_map c' = [] /\ finish H (cl_obj c') = Ok s /\ same_tree H s v st 4) \/
  exists msgs1 msgs2 c', [a; b; c] = msgs1 ++ msgs2 /\ careful_run H ovf v root msgs1 = Ok c' /\ hash_broken H (root_inputs H demo_map ++ cl_hashed c').
Proof.
  intros R Er. pose proof demo_contents as (_ & _ & _ & _ & Ec). pose proof (C104_completes H ovf demo st xs 4 v root [a; b; c] R) as T. rewrite Ec in T. apply T; [apply demo_readable|done|].
  apply (bool_decide_eq_true_1 _). vm_compute. reflexivity.
Qed.
(** By computation, with the hash function of Toy.v: the honest messages of a server among wrong ones (a chunk that is not in the tree, an honest one again, one out of order, one with the proof of another, the right
    keys with another value).  For each message, whether it is accepted; then what is missing, and whether [finish] gives the expected root hash.  The second list: a careless client that goes on with the same object. *)
Definition said (k : nat) (d : nat) : option message :=
  match run toy demo with
  | Ok (st, _) =>
      let c := take k (drop d (entries demo_map)) in
      match last c with Some (key, _) => match get_range_proof toy (store_reader st) key 4 with Ok p => Some (c, p) | _ => None end | None => None end
  | _ => None
  end.
Definition other_values (msg : message) : message := ((fun e => (e.1, [x00])) <$> msg.1, msg.2).
Definition conversation : option (list message) :=
  a ← said 1 0; ab ← said 2 0; b ← said 2 1; l ← said 1 2; Some [(wrong, RangeProof []); l; other_values a; a; a; b; ab; other_values l; (rev b.1, b.2); (b.1, a.2); (b.1, l.2)].
Fixpoint verdicts (c : client) (msgs : list message) : option (list bool * client) :=
  match msgs with
  | [] => Some ([], c)
  | msg :: msgs' => match careful_call toy true 9 toy_root c msg with Ok (c, b) => '(l, c) ← verdicts c msgs'; Some (b :: l, c) | _ => None end
  end.
Definition talk : option (list bool * bool * option bytes32) :=
  msgs ← conversation;
  match restore_new toy store_empty 9 toy_root with
  | Ok rs => '(l, c) ← verdicts (Client rs ∅ None []) msgs;
             Some (l, bool_decide (missing demo_map c = []), match finish toy (cl_obj c) with Ok s => root_of s 9 | _ => None end)
  | _ => None
  end.
Theorem C104_conversation : match talk with Some (l, b, r) => bool_decide (l = [false; false; false; true; false; false; true; false; false; false; true]) && b && bool_decide (r = Some toy_root) | None => false end = true.
Proof. vm_compute. reflexivity. Qed.
Definition careless (calls : list message) : option (option bytes32) :=
  match client_run toy true 9 toy_root ((fun msg => Add msg.1 msg.2) <$> calls) with
  | Ok (c, _) => Some (match finish toy (cl_obj c) with Ok s => root_of s 9 | _ => None end)
  | _ => None
  end.
Theorem C104_careless_refuted : match careless [(wrong, RangeProof [])] with Some (Some r) => negb (bool_decide (r = toy_root)) | _ => false end = true.
Proof. vm_compute. reflexivity. Qed.

(** *** Refuted: "with honest answers often enough, the restore is completed".  The last leaf of a chunk is written only when its right neighbour is known, so that opening the restore again gives up one entry: a liar who
    is heard after each honest one-entry chunk keeps the client at the start for ever.  (Honest chunks of two entries make progress.) *)
Definition with_hashed (c : client) (h : list (list byte)) : client := Client (cl_obj c) (cl_given c) (cl_last c) h.
Lemma one_call_hashed (H : list byte -> bytes32) ovf v root c e h : 
  match one_call H ovf v root c e with
  | Ok (c', b) => exists h', one_call H ovf v root (with_hashed c h) e = Ok (with_hashed c' h', b)
  | Err x => one_call H ovf v root (with_hashed c h) e = Err x
  | Panic => one_call H ovf v root (with_hashed c h) e = Panic
  end.
Proof.
  destruct e as [ch p|]; cbn [one_call with_hashed cl_obj cl_given cl_last cl_hashed].
  - destruct (add_chunk H ovf (cl_obj c) ch p) as [[rs [e|]]| |]; [rewrite !bind_Ok; by eexists..|done|done].
  - destruct (restore_new H (rs_store (cl_obj c)) v root) as [rs| |]; [rewrite !bind_Ok; by eexists|done|done].
Qed.
Lemma careful_call_hashed (H : list byte -> bytes32) ovf v root c msg c' b h : careful_call H ovf v root c msg = Ok (c', b) -> exists h', careful_call H ovf v root (with_hashed c h) msg = Ok (with_hashed c' h', b).
Proof.
  unfold careful_call. pose proof (one_call_hashed H ovf v root c (Add msg.1 msg.2) h) as A. pose proof (one_call_hashed H ovf v root c Reopen h) as B.
  destruct (one_call H ovf v root c (Add msg.1 msg.2)) as [[c1 [|]]|x|].
  - destruct A as [h' ->]. intros E. apply Ok_inj in E. injection E as <- <-. by exists h'.
  - destruct A as [h' ->]. intros E. rewrite E in B. exact B.
  - rewrite A. intros E. rewrite E in B. exact B.
  - rewrite A. intros E. rewrite E in B. exact B.
Qed.
Lemma careful_calls_hashed (H : list byte -> bytes32) ovf v root msgs : forall c c' h, careful_calls H ovf v root c msgs = Ok c' -> exists h', careful_calls H ovf v root (with_hashed c h) msgs = Ok (with_hashed c' h').
Proof.
  induction msgs as [|msg l IH]; intros c c' h E; cbn [careful_calls] in *; [apply Ok_inj in E; subst c'; by exists h|].
  destruct (careful_call H ovf v root c msg) as [[c1 b]| |] eqn:E1; [|done|done]. rewrite bind_Ok in E. destruct (careful_call_hashed _ _ _ _ _ _ _ _ h E1) as [h1 ->]. rewrite bind_Ok. by apply IH.
Qed.
Lemma careful_rounds (H : list byte -> bytes32) ovf v root msgs c h0 : careful_calls H ovf v root c msgs = Ok (with_hashed c h0) ->
  forall n, exists h, careful_calls H ovf v root c (concat (repeat msgs n)) = Ok (with_hashed c h).
Proof.
  intros E. assert (A : forall l1 l2 c, careful_calls H ovf v root c (l1 ++ l2) = (c ← careful_calls H ovf v root c l1; careful_calls H ovf v root c l2)).
  { induction l1 as [|x l IH]; intros l2 c2; cbn [app careful_calls]; [done|]. destruct (careful_call H ovf v _ c2 x) as [[c3 b]| |]; [rewrite !bind_Ok; apply IH|done|done]. }
  induction n as [|n [h IH]]; cbn [repeat concat]; [exists (cl_hashed c); by destruct c|]. rewrite A, E, bind_Ok. destruct (careful_calls_hashed _ _ _ _ _ _ _ h0 IH) as [h' ->]. by exists h'.
Qed.
Global Instance store_dec : EqDecision store. Proof. solve_decision. Defined.
Global Instance child_info_dec : EqDecision child_info. Proof. solve_decision. Defined.
Global Instance internal_info_dec : EqDecision internal_info. Proof. solve_decision. Defined.
Global Instance rstate_dec : EqDecision rstate. Proof. solve_decision. Defined.
(** an honest message, and then a wrong one *)
Definition interrupted (a : message) : list message := [a; (wrong, RangeProof [])].
Definition stuck_client : option client :=
  a ← said 1 0; match careful_run toy true 9 toy_root (interrupted a) with Ok c => Some c | _ => None end.
Definition stuck : bool :=
  match said 1 0, stuck_client with
  | Some a, Some c =>
      bool_decide (missing demo_map c = entries demo_map) &&
      match careful_call toy true 9 toy_root c a with Ok (_, b) => b | _ => false end &&
      match careful_calls toy true 9 toy_root c (interrupted a) with
      | Ok c' => bool_decide (cl_obj c' = cl_obj c) && bool_decide (cl_given c' = cl_given c) && bool_decide (cl_last c' = cl_last c)
      | _ => false
      end
  | _, _ => false
  end.
Lemma stuck_true : stuck = true. Proof. vm_compute. reflexivity. Qed.
Theorem C104_progress_refuted : exists a honest_accepted c1, said 1 0 = Some a /\
  careful_run toy true 9 toy_root (interrupted a) = Ok c1 /\ careful_call toy true 9 toy_root c1 a = Ok (honest_accepted, true) /\
  forall n, exists c, careful_run toy true 9 toy_root (concat (repeat (interrupted a) (Datatypes.S n))) = Ok c /\ missing demo_map c = entries demo_map.
Proof.
  pose proof stuck_true as S. unfold stuck, stuck_client in S. destruct (said 1 0) as [a|]; [|discriminate S]. cbv [mbind option_bind] in S. cbv beta iota in S.
  destruct (careful_run toy true 9 toy_root (interrupted a)) as [c1|e|] eqn:E1; [|discriminate S..].
  apply andb_true_iff in S as [S S3]. apply andb_true_iff in S as [S1 S2]. apply bool_decide_eq_true in S1.
  destruct (careful_call toy true 9 toy_root c1 a) as [[c' b]|e|] eqn:E2; [|discriminate S2..]. subst b.
  destruct (careful_calls toy true 9 toy_root c1 (interrupted a)) as [c2|e|] eqn:E3; [|discriminate S3..].
  apply andb_true_iff in S3 as [S3 S5]. apply andb_true_iff in S3 as [S3 S4]. apply bool_decide_eq_true in S3, S4, S5.
  exists a, c', c1. split; [reflexivity|]. split; [exact E1|]. split; [exact E2|]. intros n.
  assert (E4 : careful_calls toy true 9 toy_root c1 (interrupted a) = Ok (with_hashed c1 (cl_hashed c2))) by (rewrite E3; f_equal; unfold with_hashed; rewrite <- S3, <- S4, <- S5; by destruct c2).
  destruct (careful_rounds _ _ _ _ _ _ _ E4 n) as [h Eh]. exists (with_hashed c1 h). split; [|exact S1].
  cbn [repeat concat]. unfold careful_run in *. destruct (restore_new toy store_empty 9 toy_root) as [rs0|e|]; [|discriminate E1..]. rewrite bind_Ok in *.
  assert (A : forall l1 l2 c, careful_calls toy true 9 toy_root c (l1 ++ l2) = (c ← careful_calls toy true 9 toy_root c l1; careful_calls toy true 9 toy_root c l2)).
  { induction l1 as [|x l IH]; intros l2 cc; cbn [app careful_calls]; [reflexivity|]. destruct (careful_call toy true 9 _ cc x) as [[c3 b]| |]; [rewrite !bind_Ok; apply IH|reflexivity..]. }
  rewrite A, E1, bind_Ok. exact Eh.
Qed.
