(** C91: a tree can be restored into any store that keeps the contract of TreeReader and TreeWriter: a backend of the user's own (C89). *)
From Coq Require Import Strings.String.
From Verif Require Import Restore.
From Verif Require Import Base Spec SpecOrder SpecRange NodeType ProofDef TreeCache Tree Mock MockSteps MockStepFacts Driver Iterator Exclusion KeyFacts SmtFacts ProofFacts NodeFacts Canon CanonSib ReadFacts PutFacts KeyOrder OrderFacts IterFacts ExclFacts ValueFacts StoreFacts DriverFacts ThmProof ThmStore ThmStore2 Demo Toy RangeFacts ThmRange ThmIter ThmExcl
  RestoreFacts RestoreFacts2 RestoreVerify RestoreTop RestoreRec RestoreDriver RestoreRun ThmRestore ThmCrash ThmPurged ThmOrigin ThmContinue ThmBackend.
From Coq Require Import Lia.
Local Opaque Spec.smt root_inputs ms_in.

Section brestore.
Context (H : list byte -> bytes32) {T : Type}.
(** [T]: the states of the store; [rd]: its TreeReader; [wnb]: its write_node_batch *)
Context (rd : T -> reader) (wnb : T -> gmap nodekey node -> gmap (version * key) (option value) -> outcome T) (held : T -> holding).
(** *** Specification: the contract *)
Record conforms_restore : Prop := {
  cr_node s nk : rd_node (rd s) nk = h_nodes (held s) !! nk;
  cr_value s v k x : rd_value (rd s) v k = Some x <-> latest (h_values (held s)) v k x;
  (** get_rightmost_leaf (reader.rs:39-41): a stored leaf with the greatest key, if there is a leaf *)
  cr_right s : match rd_rightmost (rd s) with
    | None => forall nk l, h_nodes (held s) !! nk <> Some (Leaf l)
    | Some (nk, l) => h_nodes (held s) !! nk = Some (Leaf l) /\ forall nk' l', h_nodes (held s) !! nk' = Some (Leaf l') -> key_le (ln_key l') (ln_key l)
    end;
  (** a write that succeeds adds what is in the batch *)
  cr_write s nodes vals s' : wnb s nodes vals = Ok s' -> held s' = Held (nodes ∪ h_nodes (held s)) (vals ∪ h_values (held s)) (h_stale (held s)) }.
(** it may refuse a batch only if a node of it exists already, or a value of a later version *)
Definition accepts_nodes : Prop := forall s nodes vals, (forall nk, is_Some (nodes !! nk) -> h_nodes (held s) !! nk = None) ->
  (forall w w' k, is_Some (vals !! (w, k)) -> is_Some (h_values (held s) !! (w', k)) -> (w' <= w)%N) -> exists s', wnb s nodes vals = Ok s'.

(** *** The restore on such a store: Restore.v with the requests to the store made through the two traits. The object is the record of Restore.v, of which the field [rs_store] is not used. *)
(** restore.rs:230-233, see recover_up in Restore.v *)
Fixpoint brecover_up (r : reader) (v : version) (rp : list nibble) : outcome (list nibble) :=
  match rd_node r (v, rev rp) with
  | Some _ => match rp with [] => Panic | _ :: rp' => brecover_up r v rp' end
  | None => Ok rp
  end.
(** restore.rs:245-263, see recover_children *)
Fixpoint brecover_children (r : reader) (version : version) (nk : nodekey) (l : list nibble) (i : internal_info) : outcome internal_info :=
  match l with
  | [] => Ok i
  | n :: l' =>
      match rd_node r (gen_child nk version n) with
      | Some nd => c ← recover_child H nd; brecover_children r version nk l' (ii_set i n c)
      | None => brecover_children r version nk l' i
      end
  end.
(** restore.rs:244-285, see recover_loop *)
Fixpoint brecover_loop (r : reader) (version kv : N) (rp : list nibble) (prev : option nibble) : outcome (list internal_info) :=
  let nk := (kv, rev rp) in
  i ← brecover_children r version nk
        (match prev with Some n => filter (fun m => (nib_to_N m < nib_to_N n)%N) all_nibbles | None => all_nibbles end) (ii_empty nk);
  let i := match prev with Some n => ii_set i n (CIInternal None 0) | None => i end in
  match rp with
  | [] => Ok [i]
  | n :: rp' => ps ← brecover_loop r version kv rp' (Some n); Ok (ps ++ [i])
  end.
(** restore.rs:216-286 recover_partial_nodes *)
Definition brecover_partial_nodes (r : reader) (version : version) (nk : nodekey) : outcome (list internal_info) :=
  _ ← ensure_ (negb (bool_decide (nk.2 = []))) "Root node would not be written until entire restoration process has completed";
  match rev nk.2 with
  | [] => Panic
  | _ :: rp => rp ← brecover_up r nk.1 rp; brecover_loop r version nk.1 rp None
  end.
(** restore.rs:163-195 new *)
Definition brestore_new (s : T) (v : version) (root : hash) : outcome (T * rstate) :=
  match rd_rightmost (rd s) with
  | Some (nk, l) => ps ← brecover_partial_nodes (rd s) v nk; Ok (s, RS store_empty v ps ∅ ∅ (Some l) 0 root)
  | None => Ok (s, RS store_empty v [ii_empty (nk_root v)] ∅ ∅ None 0 root)
  end.
(** restore.rs:291-321 add_chunk_impl, see add_chunk in Restore.v.  An error of the store is returned by [?] on line 317, before the frozen nodes are cleared; a write that fails is taken to write nothing. *)
Definition badd_chunk (ovf : bool) (s : T) (rs : rstate) (chunk : list (key * value)) (p : range_proof) : outcome (T * rstate * option error) :=
  match chunk with
  | [] => Ok (s, rs, Some (EOther "Should not add empty chunks."))
  | _ =>
      '(rs, e) ← push_chunk H rs chunk;
      match e with
      | Some e => Ok (s, rs, Some e)
      | None =>
          match rverify H ovf rs p with
          | Ok _ =>
              match wnb s (rs_fnodes rs) (rs_fvalues rs) with
              | Ok s' => Ok (s', RS (rs_store rs) (rs_version rs) (rs_partial rs) ∅ ∅ (rs_prev rs) (rs_num rs) (rs_root rs), None)
              | Err e => Ok (s, rs, Some e)
              | Panic => Panic
              end
          | Err e => Ok (s, rs, Some e)
          | Panic => Panic
          end
      end
  end.
(** restore.rs:651-678 finish_impl *)
Definition bfinish (s : T) (rs : rstate) : outcome T :=
  let single :=
    match rs_partial rs with
    | [i] =>
        match filter (fun n => is_Some (ii_children i !! n)) all_nibbles with
        | [n] => match ii_children i !! n with Some (CILeaf l) => Some l | _ => None end
        | _ => None
        end
    | _ => None
    end in
  match single with
  | Some l =>
      _ ← assert_ (bool_decide (rs_fnodes rs = ∅) && bool_decide (rs_fvalues rs = ∅));
      wnb s {[ nk_root (rs_version rs) := Leaf l ]} ∅
  | None =>
      rs ← rfreeze H rs 0;
      wnb s (rs_fnodes rs) (rs_fvalues rs)
  end.
(** the honest client of RestoreDriver.v: it delivers the next entries, or dies and opens the restore again *)
Definition babove (s : T) (m : gmap key value) : list (key * value) :=
  match rd_rightmost (rd s) with
  | None => entries m
  | Some (_, l) => filter (fun e => key_ltb (ln_key l) e.1 = true) (entries m)
  end.
Fixpoint bdeliver (ovf : bool) (src : reader) (vs : version) (m : gmap key value) (v : version) (root : hash)
    (evs : list event) (s : T) (rs : rstate) (rest : list (key * value)) : outcome (T * rstate * list (key * value)) :=
  match evs with
  | [] => Ok (s, rs, rest)
  | Deliver n :: evs' =>
      match last (take (n + 1) rest) with
      | None => bdeliver ovf src vs m v root evs' s rs rest
      | Some (k, _) =>
          p ← get_range_proof H src k vs;
          '(s', rs', e) ← badd_chunk ovf s rs (take (n + 1) rest) p;
          match e with
          | Some e => Err e
          | None => bdeliver ovf src vs m v root evs' s' rs' (drop (n + 1) rest)
          end
      end
  | Crash :: evs' =>
      '(s', rs') ← brestore_new s v root;
      bdeliver ovf src vs m v root evs' s' rs' (babove s m)
  end.
Definition bdeliver_all (ovf : bool) (s0 : T) (src : reader) (vs : version) (m : gmap key value) (v : version) (root : hash) (evs : list event) : outcome (T * rstate * list (key * value)) :=
  '(s, rs) ← brestore_new s0 v root; bdeliver ovf src vs m v root evs s rs (entries m).

(** *** Proof *)
(** the operations on the partial nodes do not look at the store *)
Definition on (s : store) (rs : rstate) : rstate := RS s (rs_version rs) (rs_partial rs) (rs_fnodes rs) (rs_fvalues rs) (rs_prev rs) (rs_num rs) (rs_root rs).

Lemma freeze_previous_on s rs : freeze_previous_leaf (on s rs) = (r ← freeze_previous_leaf rs; Ok (on s r)).
Proof.
  unfold freeze_previous_leaf. cbn [on rs_num rs_partial rs_version]. destruct (rs_num rs =? 0)%nat; [done|]. destruct (unwrap (last (rs_partial rs))) as [i| |]; [rewrite !bind_Ok|done|done].
  destruct (unwrap (rposition (ii_children i))) as [n| |]; [rewrite !bind_Ok|done|done]. destruct (ii_children i !! n) as [[oh c|l]|]; done.
Qed.
Lemma freeze_top_on s rs ps top : freeze_top H (on s rs) ps top = (r ← freeze_top H rs ps top; Ok (on s r)).
Proof.
  unfold freeze_top. cbn [on rs_version]. destruct (into_internal_node H (rs_version rs) top) as [[nk nd]| |]; [rewrite !bind_Ok|done|done]. destruct (in_hash H nd) as [h| |]; [rewrite !bind_Ok|done|done].
  destruct (last ps) as [parent|]; [|done]. destruct (unwrap (rposition (ii_children parent))) as [n| |]; [rewrite !bind_Ok|done|done]. destruct (ii_children parent !! n) as [[oh c|l]|]; [|done|done].
  destruct (assert_ (bool_decide (oh = None))) as [[]| |]; [rewrite !bind_Ok|done|done]. destruct (assert_ (c =? 0)%nat) as [[]| |]; [rewrite !bind_Ok|done|done]. done.
Qed.
Lemma freeze_internal_on s n : forall rs, freeze_internal H n (on s rs) = (r ← freeze_internal H n rs; Ok (on s r)).
Proof.
  induction n as [|n IH]; intros rs; [done|]. cbn [freeze_internal]. cbn [on rs_partial]. destruct (unwrap (last (rs_partial rs))) as [top| |]; [rewrite !bind_Ok|done|done].
  rewrite freeze_top_on. destruct (freeze_top H rs _ top) as [r| |]; [rewrite !bind_Ok|done|done]. apply IH.
Qed.
Lemma rfreeze_on s rs n : rfreeze H (on s rs) n = (r ← rfreeze H rs n; Ok (on s r)).
Proof.
  unfold rfreeze. rewrite freeze_previous_on. destruct (freeze_previous_leaf rs) as [r| |]; [rewrite !bind_Ok|done|done]. unfold freeze_internal_nodes. cbn [on rs_partial]. apply freeze_internal_on.
Qed.
Lemma insert_on s rs n l k vh vis rem : insert_at_leaf H (on s rs) n l k vh vis rem = (r ← insert_at_leaf H rs n l k vh vis rem; Ok (on s r)).
Proof.
  unfold insert_at_leaf. cbn [on rs_partial rs_version]. destruct (set_child_at (rs_partial rs) _ n _) as [ps| |]; [rewrite !bind_Ok|done|done].
  destruct (Restore.chain_loop (rs_version rs) _ vis rem) as [[chain vis']| |]; [rewrite !bind_Ok|done|done]. destruct (get_nibble (ln_key l) _) as [e| |]; [rewrite !bind_Ok|done|done].
  match goal with |- context [rfreeze H (set_partial _ ?P) ?N] => change (set_partial (on s rs) P) with (on s (set_partial rs P)); rewrite (rfreeze_on s (set_partial rs P)) end.
  cbn [set_partial rs_partial]. destruct (rfreeze H _ _) as [r| |]; [rewrite !bind_Ok|done|done]. destruct (get_nibble k _) as [m| |]; [rewrite !bind_Ok|done|done]. destruct (assert_ _) as [[]| |]; [rewrite !bind_Ok|done|done].
  cbn [on rs_partial]. destruct (set_child_at (rs_partial r) _ m _) as [ps'| |]; [rewrite !bind_Ok|done|done]. done.
Qed.
Lemma add_loop_on s k vh rem : forall vis rs, add_loop H (on s rs) k vh vis rem = (r ← add_loop H rs k vh vis rem; Ok (on s r)).
Proof.
  induction rem as [|n rem IH]; intros vis rs; cbn [add_loop]; [done|]. cbn [on rs_partial]. destruct (unwrap (rs_partial rs !! length vis)) as [i| |]; [rewrite !bind_Ok|done|done].
  destruct (ii_children i !! n) as [[oh c|l]|].
  - apply IH.
  - destruct (assert_ _) as [[]| |]; [rewrite !bind_Ok|done|done]. apply insert_on.
  - fold (on s rs). rewrite rfreeze_on. destruct (rfreeze H rs (length vis + 1)) as [r| |]; [rewrite !bind_Ok|done|done]. cbn [on rs_partial]. destruct (set_child_at (rs_partial r) _ n _) as [ps'| |]; [rewrite !bind_Ok|done|done]. done.
Qed.
Lemma push_key_on s rs k x : push_key H (on s rs) k x = (r ← push_key H rs k x; Ok (on s r)).
Proof.
  unfold push_key, add_one. cbn [on rs_store rs_version rs_partial rs_fnodes rs_fvalues rs_prev rs_num rs_root].
  set (r0 := RS (rs_store rs) _ _ _ _ _ _ _). match goal with |- context [add_loop H ?R k _ [] _] => change R with (on s r0) end. rewrite add_loop_on. destruct (add_loop H r0 k _ [] _) as [r| |]; [rewrite !bind_Ok|done|done]. done.
Qed.
Lemma push_chunk_on s c : forall rs, push_chunk H (on s rs) c = ('(r, e) ← push_chunk H rs c; Ok (on s r, e)).
Proof.
  induction c as [|[k x] c IH]; intros rs; cbn [push_chunk]; [done|]. change (in_order (on s rs) k) with (in_order rs k). destruct (in_order rs k); [|done].
  rewrite push_key_on. destruct (push_key H rs k x) as [r| |]; [rewrite !bind_Ok|done|done]. apply IH.
Qed.
(** reading back the partial nodes *)
Lemma recover_same (r : reader) (s : store) v nk : (forall nk, rd_node r nk = st_nodes s !! nk) -> brecover_partial_nodes r v nk = recover_partial_nodes H s v nk.
Proof.
  intros E. unfold brecover_partial_nodes, recover_partial_nodes. destruct (ensure_ _ _) as [[]| |]; [rewrite !bind_Ok|done|done]. destruct (rev nk.2) as [|n rp]; [done|].
  assert (Eu : forall rp, brecover_up r nk.1 rp = recover_up s nk.1 rp). { clear rp. intros rp. induction rp as [|a rp IH]; cbn [brecover_up recover_up]; rewrite E; [done|]. by rewrite IH. }
  rewrite Eu. destruct (recover_up s nk.1 rp) as [rp'| |]; [rewrite !bind_Ok|done|done]. generalize (None : option nibble). induction rp' as [|a rp' IH]; intros prev; cbn [brecover_loop recover_loop].
  - assert (Ec : forall nk l i, brecover_children r v nk l i = recover_children H s v nk l i). { intros nk' l. induction l as [|b l IHl]; intros i; cbn [brecover_children recover_children]; [done|]. rewrite E. destruct (st_nodes s !! gen_child nk' v b) as [nd|]; [|apply IHl]. destruct (recover_child H nd) as [c| |]; [rewrite !bind_Ok; apply IHl|done|done]. }
    by rewrite Ec.
  - assert (Ec : forall nk l i, brecover_children r v nk l i = recover_children H s v nk l i). { intros nk' l. induction l as [|b l IHl]; intros i; cbn [brecover_children recover_children]; [done|]. rewrite E. destruct (st_nodes s !! gen_child nk' v b) as [nd|]; [|apply IHl]. destruct (recover_child H nd) as [c| |]; [rewrite !bind_Ok; apply IHl|done|done]. }
    rewrite Ec, IH. done.
Qed.
(** the values: those of the mock store's lists *)
Definition vrel (hv : gmap (version * key) (option value)) (h : gmap key (list (version * option value))) : Prop :=
  (forall k l, h !! k = Some l -> StronglySorted vlt l) /\ forall w k x, hv !! (w, k) = Some x <-> exists l, h !! k = Some l /\ (w, x) ∈ l.
Lemma sorted_snoc (l : list (version * option value)) w x : StronglySorted vlt l -> (forall w' y, (w', y) ∈ l -> (w' < w)%N) -> StronglySorted vlt (l ++ [(w, x)]).
Proof.
  induction 1 as [|[a b] l S IH F]; intros Q; [repeat constructor|]. cbn [app]. constructor; [apply IH; intros w' y E; apply (Q w' y); by right|]. apply Forall_app. split; [done|]. constructor; [|constructor]. unfold vlt. cbn. apply (Q a b). by left.
Qed.
Lemma put_vrel hv h w k x h' : vrel hv h -> put_value_hist h w k x = Ok h' -> vrel (<[ (w, k) := x ]> hv) h' /\ forall w' y, hv !! (w', k) = Some y -> (w' <= w)%N.
Proof.
  intros [So Me] P.
  assert (G : exists l, h' = <[ k := l ]> h /\ StronglySorted vlt l /\ (forall w' y, (w', y) ∈ l <-> (w', y) = (w, x) \/ w' <> w /\ hv !! (w', k) = Some y) /\ forall w' y, hv !! (w', k) = Some y -> (w' <= w)%N).
  { unfold put_value_hist in P. destruct (h !! k) as [l|] eqn:E.
    - pose proof (So k l E) as Sl. assert (Ml : forall w' y, hv !! (w', k) = Some y <-> (w', y) ∈ l). { intros w' y. rewrite Me, E. split; [intros (? & [= <-] & ?); done|eauto]. }
      destruct (rev l) as [|[lv z] r] eqn:Er.
      + assert (l = []) as -> by (rewrite <- (rev_involutive l), Er; done). injection P as <-. exists [(w, x)]. split; [done|]. split; [repeat constructor|]. split; [|intros w' y Hy; apply Ml in Hy; by apply elem_of_nil in Hy].
        intros w' y. rewrite elem_of_list_singleton, Ml. split; [by left|]. intros [?|[_ Z]]; [done|by apply elem_of_nil in Z].
      + assert (El : l = rev r ++ [(lv, z)]) by (rewrite <- (rev_involutive l), Er; done).
        assert (Lt : forall w' y, (w', y) ∈ rev r -> (w' < lv)%N). { intros w' y Hy. rewrite El in Sl. pose proof (StronglySorted_app_mid vlt _ _ _ _ Sl Hy) as Z. exact Z. }
        assert (Sr : StronglySorted vlt (rev r)) by (rewrite El in Sl; by apply StronglySorted_app_inv_l in Sl).
        destruct (N.compare_spec w lv) as [Ew|Ew|Ew]; [|done|]; injection P as <-.
        * subst lv. exists (rev r ++ [(w, x)]). split; [done|]. split; [by apply sorted_snoc|]. split.
          -- intros w' y. rewrite elem_of_app, elem_of_list_singleton, Ml, El, elem_of_app, elem_of_list_singleton. split.
             ++ intros [Z|Z]; [right; split; [apply Lt in Z; lia|by left]|by left].
             ++ intros [Z|[Nw [Z|Z]]]; [by right|by left|]. injection Z as -> _. done.
          -- intros w' y Hy. apply Ml in Hy. rewrite El in Hy. apply elem_of_app in Hy as [Hy|Hy]; [apply Lt in Hy; lia|]. apply elem_of_list_singleton in Hy. injection Hy as -> _. lia.
        * exists (l ++ [(w, x)]). split; [done|]. assert (Ll : forall w' y, (w', y) ∈ l -> (w' < w)%N). { intros w' y Hy. rewrite El in Hy. apply elem_of_app in Hy as [Hy|Hy]; [apply Lt in Hy; lia|]. apply elem_of_list_singleton in Hy. injection Hy as -> _. lia. }
          split; [by apply sorted_snoc|]. split.
          -- intros w' y. rewrite elem_of_app, elem_of_list_singleton, Ml. split; [intros [Z|Z]; [right; split; [apply Ll in Z; lia|done]|by left]|]. intros [Z|[_ Z]]; [by right|by left].
          -- intros w' y Hy. apply Ml, Ll in Hy. lia.
    - injection P as <-. exists [(w, x)]. split; [done|]. split; [repeat constructor|]. assert (Nk : forall w' y, hv !! (w', k) <> Some y). { intros w' y Hy. apply Me in Hy as (l & Hl & _). congruence. }
      split; [|intros w' y Hy; by apply Nk in Hy]. intros w' y. rewrite elem_of_list_singleton. split; [by left|]. intros [?|[_ Z]]; [done|by apply Nk in Z]. }
  destruct G as (l & -> & Sl & Ml & Le). split; [|exact Le]. split.
  - intros k' l' E. destruct (decide (k' = k)) as [->|N]; [rewrite lookup_insert in E; by injection E as <-|]. rewrite lookup_insert_ne in E by done. by eapply So.
  - intros w' k' y. destruct (decide (k' = k)) as [->|N].
    + rewrite lookup_insert. split.
      * intros E. exists l. split; [done|]. apply Ml. destruct (decide (w' = w)) as [->|Nw]; [rewrite lookup_insert in E; injection E as ->; by left|]. rewrite lookup_insert_ne in E by congruence. by right.
      * intros (l' & [= <-] & Hl). apply Ml in Hl as [[= -> ->]|[Nw Hl]]; [apply lookup_insert|]. rewrite lookup_insert_ne by congruence. done.
    + rewrite (lookup_insert_ne hv) by congruence. rewrite lookup_insert_ne by done. apply Me.
Qed.
Lemma write_vrel (l : list ((version * key) * option value)) : forall hv h h', vrel hv h -> write_values h l = Ok h' -> NoDup l.*1 ->
  exists hv', vrel hv' h' /\ (forall e, hv' !! e = match (list_to_map l : gmap (version * key) (option value)) !! e with Some x => Some x | None => hv !! e end) /\
    forall w w' k y, (w, k) ∈ l.*1 -> hv !! (w', k) = Some y -> (w' <= w)%N.
Proof.
  induction l as [|[[w k] x] l IH]; intros hv h h' V E ND; cbn [write_values] in E.
  - injection E as <-. exists hv. split; [done|]. split; [intros e; reflexivity|]. intros w w' k y Z. by apply elem_of_nil in Z.
  - apply bind_inv' in E as (h1 & E1 & E). apply NoDup_cons in ND as [Nw ND]. cbn [fst] in Nw. destruct (put_vrel _ _ _ _ _ _ V E1) as [V1 L1]. destruct (IH _ _ _ V1 E ND) as (hv' & V' & Q & L). exists hv'. split; [done|]. split.
    + intros e. rewrite Q. cbn [list_to_map foldr fst snd]. destruct (decide (e = (w, k))) as [->|Ne].
      * rewrite (not_elem_of_list_to_map_1 (M := gmap (version * key)) l (w, k)) by done. by rewrite !lookup_insert.
      * rewrite !lookup_insert_ne by done. done.
    + intros w1 w' k1 y Z Hy. apply elem_of_cons in Z as [Z|Z]; [injection Z as -> ->; by eapply L1|]. destruct (decide ((w', k1) = (w, k))) as [[= -> ->]|Ne]; [|eapply L; [done|]; rewrite lookup_insert_ne by done; done].
      eapply L; [done|apply lookup_insert].
Qed.
Lemma sorted_values_nodup (m : gmap (version * key) (option value)) : NoDup (sorted_values m).*1 /\ forall e, (list_to_map (sorted_values m) : gmap (version * key) (option value)) !! e = m !! e.
Proof.
  assert (P : sorted_values m ≡ₚ map_to_list m) by apply merge_sort_Permutation.
  assert (ND : NoDup (sorted_values m).*1) by (rewrite P; apply NoDup_fst_map_to_list). split; [done|]. intros e. rewrite (list_to_map_proper _ _ ND P), list_to_map_to_list. done.
Qed.
Lemma vrel_value (r : reader) (hv : gmap (version * key) (option value)) (t : store) w k : (forall v k x, rd_value r v k = Some x <-> latest hv v k x) -> vrel hv (st_history t) -> rd_value r w k = store_value t w k.
Proof.
  intros Cv [So Me]. apply option_eq. intros x. rewrite Cv. unfold store_value, latest. destruct (st_history t !! k) as [l|] eqn:E.
  - rewrite (latest_find l w x (So k l E)). assert (Ml : forall w' y, hv !! (w', k) = Some y <-> (w', y) ∈ l). { intros w' y. rewrite Me, E. split; [intros (? & [= <-] & ?); done|eauto]. }
    split; intros (w0 & L & A & N); exists w0; (split; [done|]); (split; [by apply Ml|]); intros w' L1 L2.
    + intros y Z. apply Ml in Z. by rewrite (N w' L1 L2) in Z.
    + destruct (hv !! (w', k)) as [y|] eqn:Z; [|done]. apply Ml in Z. by apply N in Z.
  - split; [|done]. intros (w0 & _ & A & _). apply Me in A as (l & Hl & _). congruence.
Qed.
Context (C : conforms_restore).
(** the two stores *)
Definition sim (s : T) (t : store) : Prop := h_nodes (held s) = st_nodes t /\ vrel (h_values (held s)) (st_history t) /\ st_overwrite t = false /\ h_stale (held s) = ∅.
Lemma sim_write s t nodes vals t' : sim s t -> write_node_batch t nodes vals = Ok t' -> (forall s', wnb s nodes vals = Ok s' -> sim s' t') /\ (accepts_nodes -> exists s', wnb s nodes vals = Ok s').
Proof using C.
  intros (Sn & Sv & So & Ss) W. unfold write_node_batch in W. apply bind_inv' in W as (u & A & W). apply bind_inv' in W as (h & Wv & W). injection W as <-. rewrite So in A. cbn [orb] in A.
  destruct (sorted_values_nodup vals) as [ND Lm]. destruct (write_vrel _ _ _ _ Sv Wv ND) as (hv' & V' & Q & L). split.
  - intros s' E. apply (cr_write C) in E. unfold sim. rewrite E. cbn [h_nodes h_values st_nodes st_history st_overwrite]. split; [by rewrite Sn|]. split; [|by rewrite Ss].
    replace (vals ∪ h_values (held s)) with hv'; [done|]. apply map_eq. intros e. rewrite Q, Lm, lookup_union. by destruct (vals !! e), (h_values (held s) !! e).
  - intros Ac. apply Ac.
    + intros nk [nd E]. rewrite Sn. destruct (bool_decide_reflect (dom nodes ∩ dom (st_nodes t) = (∅ : gset nodekey))) as [D|D]; [|done]. apply not_elem_of_dom. intros Z. assert (X : nk ∈ dom nodes ∩ dom (st_nodes t)) by (apply elem_of_intersection; split; [apply elem_of_dom; eauto|done]). rewrite D in X. by apply elem_of_empty in X.
    + intros w w' k [x E] [y E']. apply (L w w' k y); [|done]. apply (elem_of_list_fmap_1 fst _ ((w, k), x)). apply (elem_of_list_to_map (M := gmap (version * key)) _ _ _ ND). by rewrite Lm.
Qed.
Lemma sim_value s t w k : sim s t -> rd_value (rd s) w k = store_value t w k.
Proof using C.
  intros (_ & V & _). eapply vrel_value; [exact (cr_value C s)|exact V].
Qed.
Definition one_leaf (t : store) : Prop := forall nk nk' l l', st_nodes t !! nk = Some (Leaf l) -> st_nodes t !! nk' = Some (Leaf l') -> ln_key l = ln_key l' -> nk = nk'.
Lemma sim_right s t : sim s t -> one_leaf t -> rd_rightmost (rd s) = store_rightmost t.
Proof using C.
  intros (Sn & _) O. pose proof (cr_right C s) as R. pose proof (store_rightmost_ok t) as R'. rewrite Sn in R. destruct (rd_rightmost (rd s)) as [[nk l]|], (store_rightmost t) as [[nk' l']|].
  - destruct R as [E M], R' as [E' M']. assert (Ek : ln_key l = ln_key l') by (apply key_le_antisym; [by eapply M'|by eapply M]). pose proof (O _ _ _ _ E E' Ek) as ->. rewrite E in E'. by injection E' as ->.
  - destruct R as [E _]. by apply R' in E.
  - destruct R' as [E _]. by apply R in E.
  - done.
Qed.
Lemma sgood_one_leaf v m t Y : sgood H v m t Y -> one_leaf t.
Proof.
  intros [(_ & En & _)|(rs & k & L & Ef & _ & <- & _)]; intros nk nk' l l' E E' Ek.
  - rewrite En in E. discriminate E.
  - destruct (lv_path _ _ _ _ _ _ L) as (q & c & R & _). pose proof (ri_nodes R I) as N. unfold all_nodes in N. rewrite Ef, (left_id_L ∅ (∪)) in N. destruct nk as [w p], nk' as [w' p'].
    apply N in E as (-> & F & En), E' as (-> & F' & En'). f_equal.
    assert (G : forall p l, Leaf l = node_at H (H <$> Y) (fun _ => v) p -> exists h, U p (H <$> Y) = {[ ln_key l := h ]}).
    { clear. intros p l E. destruct (size_cases (U p (H <$> Y))) as [Eu|[(k & h & Eu)|Eu]].
      - rewrite node_at_null in E by done. done.
      - rewrite (node_at_leaf H _ _ _ k h) in E by done. injection E as ->. by exists h.
      - rewrite node_at_internal in E by done. done. }
    apply G in En as [h U1]. apply G in En' as [h' U2]. rewrite <- Ek in U2.
    assert (P1 : p `prefix_of` key_nibbles (ln_key l)). { assert (X : U p (H <$> Y) !! ln_key l = Some h) by (rewrite U1; apply lookup_singleton). by apply U_lookup in X as [_ X]. }
    assert (P2 : p' `prefix_of` key_nibbles (ln_key l)). { assert (X : U p' (H <$> Y) !! ln_key l = Some h') by (rewrite U2; apply lookup_singleton). by apply U_lookup in X as [_ X]. }
    assert (K : forall a b h, fr (H <$> Y) q (Some (q ++ [c])) a -> fr (H <$> Y) q (Some (q ++ [c])) b -> a `prefix_of` b -> U a (H <$> Y) = {[ ln_key l := h ]} -> a = b).
    { intros a b h0 (_ & Na & _) ((_ & Ob) & _) Pr Eu. destruct (decide (a = b)) as [->|Ne]; [done|]. destruct (Ob a Pr Ne) as [Z|Z]; [done|]. rewrite Eu, map_size_singleton in Z. lia. }
    destruct (prefix_weak_total _ _ _ P1 P2) as [W|W]; [by eapply K|symmetry; by eapply K].
Qed.
Definition bare (rs : rstate) : rstate := on store_empty rs.
Lemma on_bare rs : on (rs_store rs) (bare rs) = rs.
Proof. by destruct rs. Qed.
Lemma sim_new s t v root rs : sim s t -> one_leaf t -> restore_new H t v root = Ok rs -> brestore_new s v root = Ok (s, bare rs).
Proof using C.
  intros S O E. unfold brestore_new. rewrite (sim_right _ _ S O). unfold restore_new in E. destruct (store_rightmost t) as [[nk l]|]; [|by injection E as <-].
  rewrite (recover_same (rd s) t); [|intros nk'; rewrite (cr_node C); by rewrite (proj1 S)]. apply bind_inv' in E as (ps & -> & E). injection E as <-. by rewrite bind_Ok.
Qed.
Lemma bare_push rs c r : push_chunk H rs c = Ok (r, None) -> push_chunk H (bare rs) c = Ok (bare r, None).
Proof. intros E. unfold bare. by rewrite push_chunk_on, E, bind_Ok. Qed.
Lemma sim_chunk ovf s rs c p rs' : sim s (rs_store rs) -> add_chunk H ovf rs c p = Ok (rs', None) ->
  (forall s' r, badd_chunk ovf s (bare rs) c p = Ok (s', r, None) -> r = bare rs' /\ sim s' (rs_store rs')) /\ (accepts_nodes -> exists s', badd_chunk ovf s (bare rs) c p = Ok (s', bare rs', None)).
Proof using C.
  intros S E. unfold add_chunk in E. destruct c as [|e c]; [done|]. apply bind_inv' in E as ([r1 e1] & E1 & E). destruct e1 as [e1|]; [done|].
  pose proof (push_chunk_store H _ _ _ E1) as Es. cbn [fst] in Es. destruct (rverify H ovf r1 p) as [[]| |] eqn:Ev; [|done|done]. rewrite flush_eq in E. rewrite <- Es in S.
  destruct (write_node_batch (rs_store r1) (rs_fnodes r1) (rs_fvalues r1)) as [t'| |] eqn:W; [|done|done]. injection E as <-. destruct (sim_write _ _ _ _ _ S W) as [W1 W2].
  unfold badd_chunk. rewrite (bare_push _ _ _ E1), bind_Ok. change (rverify H ovf (bare r1) p) with (rverify H ovf r1 p). rewrite Ev. change (rs_fnodes (bare r1)) with (rs_fnodes r1). change (rs_fvalues (bare r1)) with (rs_fvalues r1). split.
  - intros s' r Q. destruct (wnb s (rs_fnodes r1) (rs_fvalues r1)) as [s1| |] eqn:Q1; [|done|done]. injection Q as <- <-. split; [done|]. by apply W1.
  - intros Ac. destruct (W2 Ac) as (s' & ->). by exists s'.
Qed.
Lemma sim_finish s rs t' : sim s (rs_store rs) -> finish H rs = Ok t' -> (forall s', bfinish s (bare rs) = Ok s' -> sim s' t') /\ (accepts_nodes -> exists s', bfinish s (bare rs) = Ok s').
Proof using C.
  intros S E. unfold finish in E. unfold bfinish. change (rs_partial (bare rs)) with (rs_partial rs). destruct (match rs_partial rs with [] => None | _ => _ end) as [l|].
  - apply bind_inv' in E as (u & A & E). change (rs_fnodes (bare rs)) with (rs_fnodes rs). change (rs_fvalues (bare rs)) with (rs_fvalues rs). change (rs_version (bare rs)) with (rs_version rs). rewrite A, bind_Ok. exact (sim_write _ _ _ _ _ S E).
  - apply bind_inv' in E as (r & Ef & E). unfold bare. rewrite rfreeze_on, Ef, !bind_Ok. cbn [on rs_fnodes rs_fvalues]. pose proof (rfreeze_store H _ _ _ Ef) as Es. rewrite <- Es in S. exact (sim_write _ _ _ _ _ S E).
Qed.
Section deliveries.
Context (ovf : bool) (src : reader) (vs v : version) (m : gmap key value) (NB : nb H (H <$> m)) (So : source_ok H m src vs).
Lemma sim_deliver evs : forall s rs X Y rs' rest', hobj H v m rs X Y -> sim s (rs_store rs) -> deliver H ovf src vs m v (smt_root H m) evs rs (rest_of m X) = Ok (rs', rest') ->
  (forall s' r l, bdeliver ovf src vs m v (smt_root H m) evs s (bare rs) (rest_of m X) = Ok (s', r, l) -> r = bare rs' /\ l = rest' /\ sim s' (rs_store rs')) /\
  (accepts_nodes -> exists s', bdeliver ovf src vs m v (smt_root H m) evs s (bare rs) (rest_of m X) = Ok (s', bare rs', rest')).
Proof using C NB So.
  induction evs as [|[n|] evs IH]; intros s rs X Y rs' rest' Ho S E.
  - cbn [deliver bdeliver] in *. injection E as <- <-. split; [intros s' r l [= <- <- <-]; done|]. intros _. by exists s.
  - cbn [deliver bdeliver] in *. destruct (last (take (n + 1) (rest_of m X))) as [[k x]|] eqn:El; [|by eapply IH].
    assert (Em : m !! k = Some x). { apply last_Some in El as [l' El]. apply (rest_elem m X k x). rewrite <- (take_drop (n + 1) (rest_of m X)), El. apply elem_of_app. left. apply elem_of_app. right. by left. }
    destruct (So k x Em) as (p & j & Ep & Tm & Es). rewrite Ep, bind_Ok in E. rewrite Ep, bind_Ok.
    destruct (add_honest H v m ovf rs X Y _ (drop (n + 1) (rest_of m X)) k x p j NB Ho (eq_sym (take_drop _ _)) El Tm Es) as (rs1 & X1 & E1 & Ho1 & Er1).
    rewrite E1, bind_Ok in E. rewrite <- Er1 in E. rewrite <- Er1. destruct (sim_chunk ovf s rs _ p rs1 S E1) as [A1 A2]. split.
    + intros s' r l Q. apply bind_inv' in Q as ([[s1 r1] [e|]] & Q1 & Q); [done|]. apply A1 in Q1 as [-> S1]. destruct (IH s1 rs1 X1 X1 rs' rest' Ho1 S1 E) as [G _]. by eapply G.
    + intros Ac. destruct (A2 Ac) as (s1 & Q1). rewrite Q1, bind_Ok. pose proof (proj2 (A1 _ _ Q1)) as S1. destruct (IH s1 rs1 X1 X1 rs' rest' Ho1 S1 E) as [_ G]. by apply G.
  - cbn [deliver bdeliver] in *. pose proof Ho as (_ & G & _). destruct (reopen_hobj H v m _ _ G) as (rs1 & X1 & E1 & Ho1 & Ea & _ & Es). rewrite E1, bind_Ok in E. rewrite (sim_new _ _ _ _ _ S (sgood_one_leaf _ _ _ _ G) E1), bind_Ok.
    assert (Eab : babove s m = rest_of m X1) by (unfold babove; rewrite (sim_right _ _ S (sgood_one_leaf _ _ _ _ G)); exact Ea). rewrite Eab. rewrite Ea in E. rewrite <- Es in S. exact (IH s rs1 X1 Y rs' rest' Ho1 S E).
Qed.
End deliveries.
End brestore.
