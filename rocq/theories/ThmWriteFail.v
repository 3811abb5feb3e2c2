(** C77: writes that fail during a restore. *)
From Coq Require Import Strings.String.
From Verif Require Import Base Spec SpecOrder SpecRange NodeType ProofDef TreeCache Tree Mock Driver Restore KeyFacts SmtFacts ProofFacts NodeFacts Canon CanonSib PutFacts KeyOrder OrderFacts ThmNode ValueFacts ReadFacts DriverFacts ThmProof ThmStore ThmStore2 Demo RangeFacts ThmRange
  RestoreFacts RestoreFacts2 RestoreVerify RestoreTop RestoreRec RestoreDriver RestoreRun ThmRestore Toy.
From Coq Require Import Lia.
Local Opaque Spec.smt root_inputs ms_in.

(** *** The restore on a store that may refuse to write *)
Definition write_failed : error := EOther "write_node_batch failed".
Section drivers.
Context (H : list byte -> bytes32) (ovf : bool).
(** restore.rs:291-321 add_chunk_impl when [self.store.write_node_batch] returns an error and writes nothing ([up = false]): [?] on line 317
    returns before [frozen_nodes.clear()], with the chunk already taken into the object.  With [up = true]: add_chunk of Restore.v. *)
Definition add_chunk_up (up : bool) (rs : rstate) (chunk : list (key * value)) (p : range_proof) : outcome (rstate * option error) :=
  match chunk with
  | [] => Ok (rs, Some (EOther "Should not add empty chunks."))
  | _ =>
      '(rs, e) ← push_chunk H rs chunk;
      match e with
      | Some e => Ok (rs, Some e)
      | None =>
          match rverify H ovf rs p with
          | Ok _ => if up then flush rs else Ok (rs, Some write_failed)
          | Err e => Ok (rs, Some e)
          | Panic => Panic
          end
      end
  end.
Lemma add_chunk_up_true rs chunk p : add_chunk_up true rs chunk p = add_chunk H ovf rs chunk p.
Proof. reflexivity. Qed.

(** A client that delivers all entries in order and goes on with the next ones whether or not the store was written; when the process dies
    (or [finish], that consumes the object, fails to write) it reopens the restore on the store. *)
Definition unexpected (up : bool) (e : option error) : option error :=
  match up, e with
  | true, _ => e
  | false, Some (EOther s) => if String.eqb s "write_node_batch failed" then None else e
  | false, Some _ => e
  | false, None => Some (EOther "accepted, but not written")
  end.
Inductive wevent : Type := WDeliver (n : nat) (up : bool) | WCrash.
Fixpoint wdeliver (src : reader) (vs : version) (m : gmap key value) (v : version) (root : hash)
    (evs : list wevent) (rs : rstate) (rest : list (key * value)) : outcome (rstate * list (key * value)) :=
  match evs with
  | [] => Ok (rs, rest)
  | WDeliver n up :: evs' =>
      match last (take (n + 1) rest) with
      | None => wdeliver src vs m v root evs' rs rest
      | Some (k, _) =>
          p ← get_range_proof H src k vs;
          '(rs, e) ← add_chunk_up up rs (take (n + 1) rest) p;
          match unexpected up e with
          | Some e => Err e
          | None => wdeliver src vs m v root evs' rs (drop (n + 1) rest)
          end
      end
  | WCrash :: evs' =>
      rs' ← restore_new H (rs_store rs) v root;
      wdeliver src vs m v root evs' rs' (above_rightmost (rs_store rs) m)
  end.
Definition wdeliver_all (src : reader) (vs : version) (m : gmap key value) (v : version) (root : hash)
    (evs : list wevent) : outcome (rstate * list (key * value)) :=
  rs ← restore_new H store_empty v root; wdeliver src vs m v root evs rs (entries m).
End drivers.

Section run.
Context (H : list byte -> bytes32) (v : version) (m : gmap key value).
Implicit Types (X Y W : gmap key value) (q : list nibble).
(** an object that has taken the entries [X] of [m], of which the store holds [Y] *)
Definition pend rs X Y : Prop := exists W X0 k, live H v True rs X k /\ vals v rs W Y /\ X = W ∪ X0 /\ X0 ⊆ Y /\ Y ⊆ X /\ upto m X k.
Definition wobj rs X Y : Prop := rs_root rs = smt_root H m /\ sgood H v m (rs_store rs) Y /\ below m X /\ (fresh_obj H v m rs X Y \/ pend rs X Y).
Lemma synced_pend rs X k : synced H v m rs X k -> pend rs X X.
Proof. intros (_ & L & _ & V & Up). exists ∅, X, k. by rewrite (left_id_L ∅ (∪)). Qed.
Lemma hobj_wobj rs X Y : hobj H v m rs X Y -> wobj rs X Y.
Proof. intros (R & G & B & [F|[-> [k S]]]); (split; [done|]; split; [done|]; split; [done|]); [by left|right; by eapply synced_pend]. Qed.
Lemma wobj_obj rs X Y : wobj rs X Y -> obj H v m rs X Y.
Proof. intros (R & G & _ & [F|(W & X0 & k & L & V & E & S1 & S2 & Up)]); (split; [done|]; split; [done|]); [by left|right; by exists True, W, k, X0]. Qed.
Lemma push_pend rs X Y c d : wobj rs X Y -> rest_of m X = c ++ d -> c <> [] ->
  exists rs1, push_chunk H rs c = Ok (rs1, None) /\ taken (ln_key <$> rs_prev rs) c = c.
Proof.
  intros (R & G & B & [F|(W & X0 & k & L & V & _ & _ & _ & Up)]) Er Nc.
  - apply (push_honest H v m rs X Y c d); [|done|done]. split; [done|]. split; [done|]. split; [done|]. by left.
  - pose proof (rest_sorted m X) as So. rewrite Er in So. apply sorted_app_inv in So as (Sc & _ & _).
    assert (Lc : forall e, e ∈ c -> key_lt k e.1).
    { intros [k' x'] He. cbn. assert (Z : (k', x') ∈ rest_of m X) by (rewrite Er; apply elem_of_app; by left). apply rest_elem in Z as [Z1 Z2]. apply key_lt_not_le. intros Le.
      specialize (Up k'). rewrite decide_True in Up by done. congruence. }
    destruct (push_chunk_any H v True c rs _ _ _ _ L V) as (rs2 & e & E2 & _ & _ & _ & _ & T2). rewrite (proj2 T2) in E2 by (by apply taken_sorted_all). exists rs2. split; [done|].
    destruct (lv_prev _ _ _ _ _ _ L) as (x & _ & ->). cbn. by apply taken_sorted_all.
Qed.
Lemma add_pend ovf up rs X Y c d k x p n : nb H (H <$> m) -> wobj rs X Y -> rest_of m X = c ++ d -> last c = Some (k, x) ->
  term (H <$> m) k n -> right_siblings p = map (hsib H (H <$> m) k) (turns false k n) ->
  exists rs' e X' Y', add_chunk_up H ovf up rs c p = Ok (rs', e) /\ e = (if up then None else Some write_failed) /\ (up = false -> Y' = Y) /\ wobj rs' X' Y' /\ rest_of m X' = d.
Proof.
  intros NB Ho Er El T Es. assert (Nc : c <> []) by (by intros ->). destruct (push_pend rs X Y c d Ho Er Nc) as (rs1 & Ep & Et).
  pose proof (wobj_obj _ _ _ Ho) as O. destruct (push_obj H v m rs X Y c _ Nc O Ep) as (R1 & S1 & _ & O1 & U1 & P1). cbn [fst snd] in *. rewrite Et in *. specialize (U1 eq_refl).
  destruct U1 as (g & W & k' & X0 & L & V & Ex & Sx & Gu). destruct (rest_step m X c d (proj1 (proj2 (proj2 Ho))) Er) as [B' Er'].
  assert (k' = k) as ->. { destruct (lv_prev _ _ _ _ _ _ L) as (? & _ & Ev). rewrite Ev in P1. unfold last_key in P1. rewrite El in P1. cbn in P1. congruence. }
  assert (Up : upto m (fold_left ins c X) k). { apply below_upto; [done| |by apply (lv_max _ _ _ _ _ _ L)]. destruct (lv_prev _ _ _ _ _ _ L) as (? & ? & _). eauto. }
  assert (Rv : rverify H ovf rs1 p = Ok tt) by (eapply rverify_complete; eauto; apply O1).
  assert (Ea : forall r, (if up then flush rs1 else Ok (rs1, Some write_failed)) = r -> add_chunk_up H ovf up rs c p = r).
  { intros r <-. unfold add_chunk_up. destruct c as [|c0 c']; [done|]. rewrite Ep, bind_Ok, Rv. done. }
  destruct up.
  - destruct (flush_used H v m rs1 g W X0 _ Y k (proj1 O1) L V Ex Sx Gu Up) as (rs2 & E2 & Sy). exists rs2, None, (fold_left ins c X), (fold_left ins c X). split; [by apply Ea|]. split; [done|].
    split; [done|]. split; [|done]. pose proof (synced_obj _ _ _ _ _ _ Sy) as (A1 & A2 & _). split; [done|]. split; [done|]. split; [done|]. right. by eapply synced_pend.
  - eexists rs1, _, (fold_left ins c X), Y. split; [by apply Ea|]. split; [done|]. split; [done|]. split; [|done]. split; [apply O1|]. split; [apply O1|]. split; [done|]. right.
    destruct (Gu Up) as [Hg Sy]. exists W, X0, k. split; [by eapply live_imp; [|exact L]|]. done.
Qed.
Lemma wdeliver_ok ovf src vs evs : nb H (H <$> m) -> source_ok H m src vs -> forall rs X Y, wobj rs X Y -> exists rs' X' Y',
  wdeliver H ovf src vs m v (smt_root H m) evs rs (rest_of m X) = Ok (rs', rest_of m X') /\ wobj rs' X' Y'.
Proof.
  intros NB So. induction evs as [|[n up|] evs IH]; intros rs X Y Ho.
  - by exists rs, X, Y.
  - cbn [wdeliver]. destruct (last (take (n + 1) (rest_of m X))) as [[k x]|] eqn:El; [|by eapply IH].
    assert (Em : m !! k = Some x). { apply last_Some in El as [l' El]. apply (rest_elem m X k x). rewrite <- (take_drop (n + 1) (rest_of m X)), El. apply elem_of_app. left. apply elem_of_app. right. by left. }
    destruct (So k x Em) as (p & j & -> & T & Es). rewrite bind_Ok.
    destruct (add_pend ovf up rs X Y _ (drop (n + 1) (rest_of m X)) k x p j NB Ho (eq_sym (take_drop _ _)) El T Es) as (rs1 & e & X1 & Y1 & E1 & Eu & _ & Ho1 & Er1).
    rewrite E1, bind_Ok, <- Er1. subst e. destruct up; by eapply IH.
  - cbn [wdeliver]. pose proof Ho as (_ & G & _). destruct (reopen_hobj H v m _ _ G) as (rs1 & X1 & -> & Ho1 & Ea & _). rewrite bind_Ok, Ea. eapply IH. by apply hobj_wobj.
Qed.
Lemma finish_pend rs X Y : 2 <= size m -> wobj rs X Y -> rest_of m X = [] -> exists s, finish H rs = Ok s /\ complete H v s (H <$> m) /\ st_history s = hist1 v m.
Proof.
  intros Nm (R & G & B & [F|(W & X0 & k & L & V & Ex & S1 & S2 & Up)]) Er.
  - destruct F as (q & k0 & x0 & _ & _ & _ & [_ [Me|[d Er0]]] & _); [by rewrite Me, map_size_empty in Nm; lia|congruence].
  - apply below_all in Er; [|done]. destruct (finish_ok H v rs X W Y k L V) as (s & E & C & Eh); [rewrite Er; lia|]. exists s. split; [done|]. rewrite Er in C. split; [done|].
    rewrite Eh. f_equal. rewrite <- Er. by apply (union_between W X0 X Y).
Qed.
Lemma finish_single rs X W Y k : live H v True rs X k -> vals v rs W Y -> size X = 1 -> W <> ∅ -> finish H rs = Panic.
Proof.
  intros [(q & c & I & (h & Eu) & T) P M N] [V1 V2] Sz Wn. unfold finish.
  assert (Ek : U (q ++ [c]) (H <$> X) !! k = Some h) by (rewrite Eu; apply lookup_singleton). apply U_lookup in Ek as [Ek Pk].
  destruct (ri_bottom _ _ _ _ _ _ _ I) as (i & _ & _ & Ki & Ci & Eps).
  destruct (size_cases (H <$> X)) as [E0|[(k' & h' & E1)|E2]]; [by rewrite E0 in Ek| |rewrite map_size_fmap in E2; lia].
  assert (q = []) as ->. { destruct q as [|a q]; [done|]. specialize (T ltac:(done)). pose proof (U_app_size [] (a :: q) (H <$> X)) as L. rewrite U_nil, E1, map_size_singleton in L. rewrite E1 in T. cbn [app] in L. lia. }
  cbn [app length take] in *. rewrite take_0 in Eps. cbn [app] in Eps. rewrite E1 in Ek. apply lookup_singleton_Some in Ek as [-> ->].
  rewrite Eps. assert (Ef' : filter (fun n => is_Some (ii_children i !! n)) all_nibbles = [c]).
  { apply Permutation_singleton_r. apply NoDup_Permutation; [apply NoDup_filter, all_nibbles_nodup|apply NoDup_singleton|].
    intros n. rewrite elem_of_list_filter, elem_of_list_singleton, Ci. cbn [app]. split.
    - intros [[ci Hc] _]. destruct (decide (U [n] (H <$> X) = ∅)) as [E|E]; [by rewrite cinfo_none in Hc|]. apply U_nonempty in E as (x & y & Ex & Px).
      rewrite E1 in Ex. apply lookup_singleton_Some in Ex as [<- <-]. by apply (pre_snoc_eq [] (key_nibbles k)).
    - intros ->. rewrite (cinfo_leaf _ _ _ _ _ Eu). split; [eauto|apply all_nibbles_complete]. }
  rewrite Ef', Ci. cbn [app]. rewrite (cinfo_leaf _ _ _ _ _ Eu), V1.
  rewrite (bool_decide_false (fvals v W = ∅)); [by rewrite andb_false_r|]. intros E. apply map_choose in Wn as (k0 & x0 & Ek0).
  apply (f_equal (fun f => f !! (v, k0))) in E. unfold fvals in E. by rewrite (lookup_kmap (pair v)), lookup_fmap, Ek0, lookup_empty in E.
Qed.
End run.

Section thm.
Context (H : list byte -> bytes32).
Lemma wdeliver_app ovf src vs m v root e1 e2 : forall rs rest, wdeliver H ovf src vs m v root (e1 ++ e2) rs rest =
  ('(rs, rest) ← wdeliver H ovf src vs m v root e1 rs rest; wdeliver H ovf src vs m v root e2 rs rest).
Proof.
  induction e1 as [|[n up|] e1 IH]; intros rs rest; cbn [app wdeliver]; [done| |].
  - destruct (last (take (n + 1) rest)) as [[k x]|]; [|apply IH]. destruct (get_range_proof H src k vs) as [p| |]; [rewrite !bind_Ok|done|done].
    destruct (add_chunk_up H ovf up rs (take (n + 1) rest) p) as [[rs' e]| |]; [|done|done]. rewrite !bind_Ok. destruct (unexpected up e); [done|apply IH].
  - destruct (restore_new H (rs_store rs) v root) as [rs'| |]; [rewrite !bind_Ok; apply IH|done|done].
Qed.
(** with a store that writes, this is the client of C33, C34 *)
Definition wevent_of (e : event) : wevent := match e with Deliver n => WDeliver n true | Crash => WCrash end.
Lemma wdeliver_up ovf src vs m v root evs : forall rs rest, wdeliver H ovf src vs m v root (map wevent_of evs) rs rest = deliver H ovf src vs m v root evs rs rest.
Proof.
  induction evs as [|[n|] evs IH]; intros rs rest; cbn [map wevent_of wdeliver deliver]; [done| |].
  - destruct (last (take (n + 1) rest)) as [[k x]|]; [|apply IH]. destruct (get_range_proof H src k vs) as [p| |]; [rewrite !bind_Ok|done|done]. rewrite add_chunk_up_true.
    destruct (add_chunk H ovf rs (take (n + 1) rest) p) as [[rs' [e|]]| |]; [done|rewrite !bind_Ok; apply IH|done|done].
  - destruct (restore_new H (rs_store rs) v root) as [rs'| |]; [rewrite !bind_Ok; apply IH|done|done].
Qed.
Lemma wdeliver_all_ok ovf ops st xs vs v root evs : run H ops = Ok (st, xs) -> readable ops vs -> get_root_hash H (store_reader st) vs = Ok root -> let m := contents_at (history ops) vs in
  hash_broken H (root_inputs H m) \/ exists rs X Y, wdeliver_all H ovf (store_reader st) vs m v root evs = Ok (rs, rest_of m X) /\ wobj H v m rs X Y.
Proof.
  intros R L Er m. destruct (read_root H ops st xs vs R L) as [Er' _]. fold m in Er'. rewrite Er' in Er. apply Ok_inj in Er. subst root.
  destruct (nb_dec H (H <$> m)) as [NB|(x & Hx & Ex)]; [|left; right; exists x; split; [by apply ms_in_root|done]]. right.
  destruct (start_hobj H v m) as (rs0 & E0 & Ho & _). unfold wdeliver_all. rewrite E0, bind_Ok, <- rest_empty. eapply wdeliver_ok; [done|by eapply source_run|by apply hobj_wobj].
Qed.

(** *** C77: a failed write loses nothing.  Whatever the sizes of the chunks, whichever of the writes fail, and wherever the crashes, every chunk is
    accepted or answered with the error of the store, and once all entries have been given, [finish] leaves a tree that reads as the original: what
    could not be written is written with the next chunk or by [finish].  For a tree of at least two entries. *)
Theorem C77_write_failures (ovf : bool) (ops : list op) st xs (vs v : version) (root : hash) (evs : list wevent) :
  run H ops = Ok (st, xs) -> readable ops vs -> get_root_hash H (store_reader st) vs = Ok root -> let m := contents_at (history ops) vs in 2 <= size m ->
  hash_broken H (root_inputs H m) \/
  exists rs rest, wdeliver_all H ovf (store_reader st) vs m v root evs = Ok (rs, rest) /\
    (rest = [] -> exists s, finish H rs = Ok s /\ same_tree H s v st vs).
Proof.
  intros R L Er m Nm. destruct (wdeliver_all_ok ovf ops st xs vs v root evs R L Er) as [B|(rs & X & Y & E & Ho)]; [by left|right]. fold m in E, Ho.
  exists rs, (rest_of m X). split; [done|]. intros Ee. destruct (finish_pend H v m rs X Y Nm Ho Ee) as (s & Ef & C & Eh). exists s. split; [done|]. eapply (restored_same H m); try done.
  intros Me. rewrite Me, map_size_empty in Nm. lia.
Qed.
Lemma deliver_rest ovf src vs m v root X up rs r : wdeliver H ovf src vs m v root [WDeliver (size m) up] rs (rest_of m X) = Ok r -> r.2 = [].
Proof.
  cbn [wdeliver]. assert (Le : length (rest_of m X) <= size m). { unfold rest_of. etrans; [apply filter_length|]. by rewrite entries_length. }
  rewrite take_ge by lia. rewrite drop_ge by lia. destruct (last (rest_of m X)) as [[k x]|] eqn:El; [|apply last_None in El; rewrite El; by intros [= <-]].
  destruct (get_range_proof H src k vs) as [p| |]; [rewrite bind_Ok|done|done]. destruct (add_chunk_up H ovf up rs (rest_of m X) p) as [[rs1 e]| |]; [|done|done].
  rewrite bind_Ok. destruct (unexpected up e); [done|]. by intros [= <-].
Qed.
(** ... and from every such point it can be completed, even if the last chunk cannot be written. *)
Theorem C77_completes (ovf : bool) (ops : list op) st xs (vs v : version) (root : hash) (evs : list wevent) (up : bool) :
  run H ops = Ok (st, xs) -> readable ops vs -> get_root_hash H (store_reader st) vs = Ok root -> let m := contents_at (history ops) vs in 2 <= size m ->
  hash_broken H (root_inputs H m) \/
  exists rs s, wdeliver_all H ovf (store_reader st) vs m v root (evs ++ [WDeliver (size m) up]) = Ok (rs, []) /\ finish H rs = Ok s /\ same_tree H s v st vs.
Proof.
  intros R L Er m Nm. destruct (wdeliver_all_ok ovf ops st xs vs v root evs R L Er) as [B|(rs & X & Y & E & Ho)]; [by left|]. fold m in E, Ho.
  destruct (C77_write_failures ovf ops st xs vs v root (evs ++ [WDeliver (size m) up]) R L Er Nm) as [B|(rs' & rest & E' & F)]; [by left|right]. fold m in E', F.
  assert (Z : rest = []).
  { revert E'. unfold wdeliver_all in *. destruct (restore_new H store_empty v root) as [rs0| |]; [|done|done]. rewrite bind_Ok in *. rewrite wdeliver_app, E, bind_Ok. intros Er'. by apply deliver_rest in Er'. }
  subst rest. destruct (F eq_refl) as (s & Ef & Sm). by exists rs', s.
Qed.
(** ... for every tree, one entry or more, by reopening the restore. *)
Theorem C77_reopened (ovf : bool) (ops : list op) st xs (vs v : version) (root : hash) (evs : list wevent) :
  run H ops = Ok (st, xs) -> readable ops vs -> get_root_hash H (store_reader st) vs = Ok root -> let m := contents_at (history ops) vs in m <> ∅ ->
  hash_broken H (root_inputs H m) \/
  exists rs s, wdeliver_all H ovf (store_reader st) vs m v root (evs ++ [WCrash; WDeliver (size m) true]) = Ok (rs, []) /\ finish H rs = Ok s /\ same_tree H s v st vs.
Proof.
  intros R L Er m Nm. destruct (wdeliver_all_ok ovf ops st xs vs v root evs R L Er) as [B|(rs & X & Y & E & Ho)]; [by left|]. fold m in E, Ho.
  destruct (nb_dec H (H <$> m)) as [NB|(x & Hx & Ex)]; [|left; right; exists x; split; [by apply ms_in_root|done]]. right.
  destruct (read_root H ops st xs vs R L) as [Er' _]. fold m in Er'. rewrite Er' in Er. apply Ok_inj in Er. subst root.
  pose proof Ho as (_ & G & _). destruct (reopen_hobj H v m _ _ G) as (rs1 & X1 & E1 & Ho1 & Ea & _).
  destruct (deliver_ok H v m ovf (store_reader st) vs [Deliver (size m)] NB (source_run H ops st xs vs R L) rs1 X1 Y Ho1) as (rs2 & X2 & Y2 & E2 & Ho2).
  rewrite <- wdeliver_up in E2. cbn [map wevent_of] in E2. pose proof (deliver_rest _ _ _ _ _ _ _ _ _ _ E2) as Z. cbn [snd] in Z. rewrite Z in E2.
  destruct (finish_honest H v m rs2 X2 Y2 Nm Ho2 Z) as (s & Ef & C & Eh). exists rs2, s. split; [|split; [done|by eapply (restored_same H m)]].
  unfold wdeliver_all in *. destruct (restore_new H store_empty v (smt_root H m)) as [rs0| |]; [|done|done]. rewrite bind_Ok in *. rewrite wdeliver_app, E, bind_Ok.
  change [WCrash; WDeliver (size m) true] with ([WCrash] ++ [WDeliver (size m) true]). rewrite wdeliver_app. cbn [wdeliver]. rewrite E1, !bind_Ok, Ea. exact E2.
Qed.
(** *** ... but a tree of one entry must be reopened: if its only chunk could not be written, [finish] panics on the same object. *)
Theorem C77_one_entry (ovf : bool) (ops : list op) st xs (vs v : version) (root : hash) (n : nat) :
  run H ops = Ok (st, xs) -> readable ops vs -> get_root_hash H (store_reader st) vs = Ok root -> let m := contents_at (history ops) vs in size m = 1 ->
  hash_broken H (root_inputs H m) \/
  exists rs, wdeliver_all H ovf (store_reader st) vs m v root [WDeliver n false] = Ok (rs, []) /\ finish H rs = Panic.
Proof.
  intros R L Er m Sz. destruct (read_root H ops st xs vs R L) as [Er' _]. fold m in Er'. rewrite Er' in Er. apply Ok_inj in Er. subst root.
  destruct (nb_dec H (H <$> m)) as [NB|(x & Hx & Ex)]; [|left; right; exists x; split; [by apply ms_in_root|done]]. right.
  destruct (start_hobj H v m) as (rs0 & E0 & Ho & _). unfold wdeliver_all. rewrite E0, bind_Ok, <- (rest_empty m).
  assert (Le : length (rest_of m ∅) = 1) by (by rewrite rest_empty, entries_length). 
  destruct (rest_of m ∅) as [|[k x] [|? ?]] eqn:Er2; [done| |done]. cbn [wdeliver].
  replace (take (n + 1) [(k, x)]) with [(k, x)] by (by rewrite take_ge by (cbn; lia)). rewrite drop_ge by (cbn; lia). cbn [last].
  assert (Em : m !! k = Some x) by (apply (rest_elem m ∅ k x); rewrite Er2; by left).
  destruct (source_run H ops st xs vs R L k x Em) as (p & j & -> & T & Es). rewrite bind_Ok.
  destruct (add_pend H v m ovf false rs0 ∅ ∅ [(k, x)] [] k x p j NB (hobj_wobj _ _ _ _ _ _ Ho)) as (rs1 & e & X1 & Y1 & E1 & Eu & Ey & Ho1 & Er1); [done|done|done|done|].
  rewrite E1, bind_Ok. subst e. cbn [unexpected write_failed String.eqb Ascii.eqb Bool.eqb]. exists rs1. split; [done|].
  specialize (Ey eq_refl). subst Y1. destruct Ho1 as (_ & _ & B & [F|(W & X0 & k1 & L1 & V1 & Ex & S1 & S2 & Up)]).
  - destruct F as (q & k0 & x0 & _ & _ & _ & [_ [Me|[d Er0]]] & _); [by rewrite Me, map_size_empty in Sz|congruence].
  - apply below_all in Er1; [|done]. eapply finish_single; [exact L1|exact V1|by rewrite Er1|]. intros ->. assert (Z : X0 = ∅) by (apply map_subseteq_po; [done|apply map_empty_subseteq]).
    rewrite Z, (left_id_L ∅ (∪)) in Ex. rewrite <- Er1, Ex, map_size_empty in Sz. done.
Qed.
End thm.
(** The theorem applied to the last version of the demo history: the first chunk is not written, the second is, then a crash, and nothing more is written
    before [finish]. *)
Theorem demo_write_failures (H : list byte -> bytes32) ovf st xs root v : run H demo = Ok (st, xs) -> get_root_hash H (store_reader st) 4 = Ok root ->
  hash_broken H (root_inputs H {[ K00 := vb; K80 := va; KC0 := vc ]}) \/
  exists rs s, wdeliver_all H ovf (store_reader st) 4 {[ K00 := vb; K80 := va; KC0 := vc ]} v root
      [WDeliver 0 false; WDeliver 0 true; WCrash; WDeliver 0 false; WDeliver 3 false] = Ok (rs, []) /\ finish H rs = Ok s /\ same_tree H s v st 4.
Proof.
  intros R Er. pose proof demo_contents as (_ & _ & _ & _ & Ec).
  pose proof (C77_completes H ovf demo st xs 4 v root [WDeliver 0 false; WDeliver 0 true; WCrash; WDeliver 0 false] false R) as T.
  rewrite Ec in T. apply T; [apply demo_readable|done|]. apply (bool_decide_eq_true_1 _). vm_compute. reflexivity.
Qed.
(** By computation, with the hash function of Toy.v: what the store holds after each event, and that [finish] gives the root of the tree. *)
Definition wfinished (m : gmap key value) (evs : list wevent) : option (nat * option bool) :=
  match run toy [Commit [ (fun e => (e.1, Some e.2)) <$> entries m ] ] with
  | Ok (st, _) =>
      match wdeliver_all toy true (store_reader st) 0 m 9 (smt_root toy m) evs with
      | Ok (rs, []) => Some (size (st_nodes (rs_store rs)),
          match finish toy rs with
          | Ok s => Some (match get_root_hash toy (store_reader s) 9 with Ok r => bool_decide (r = smt_root toy m) | _ => false end)
          | _ => None
          end)
      | _ => None
      end
  | _ => None
  end.
Example toy_write_failures : let m := {[ K00 := vb; K80 := va; KC0 := vc ]} : gmap key value in
  wfinished m [WDeliver 0 false; WDeliver 1 false] = Some (0, Some true) /\ wfinished m [WDeliver 0 false; WDeliver 1 true] = Some (2, Some true) /\
  wfinished m [WDeliver 0 false; WDeliver 0 true; WCrash; WDeliver 2 false] = Some (1, Some true) /\
  wfinished {[ K00 := vb ]} [WDeliver 0 false] = Some (0, None) /\ wfinished {[ K00 := vb ]} [WDeliver 0 false; WCrash; WDeliver 0 true] = Some (0, Some true).
Proof. vm_compute. repeat split; reflexivity. Qed.
