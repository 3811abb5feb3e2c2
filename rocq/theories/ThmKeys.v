(** C87: keys that are byte strings.  A client that hashes its keys (KeyHash::with, lib.rs:247-253) sees the tree as a map from byte strings,
    unless it used or asks for two keys with the same hash. *)
From Coq Require Import Strings.String.
From Verif Require BatchTop.
From Verif Require Import Base Spec SpecOrder SpecRange NodeType ProofDef TreeCache Tree BatchTree Mock Driver Iterator Exclusion KeyFacts SmtFacts ProofFacts NodeFacts Canon CanonSib ReadFacts PutFacts InsertFacts PutTop VersionFacts ValueFacts StoreFacts DriverFacts DriverFacts2 LeafVersion KeyOrder OrderFacts IterFacts ExclFacts ThmProof ThmStore ThmStore2 ThmRange ThmIter ThmExcl Demo Toy ThmCrash.
From Coq Require Import Lia.
Local Opaque Spec.smt root_inputs ms_in.

(** *** Specification: histories over byte-string keys *)
Notation bset := (list (list byte * option (list byte))) (only parsing).
Definition bwrite (m : gmap (list byte) value) (w : list byte * option value) : gmap (list byte) value :=
  match w.2 with Some x => <[ w.1 := x ]> m | None => delete w.1 m end.
Definition bcontents (hist : list bset) : gmap (list byte) value := fold_left bwrite (concat hist) ∅.
Definition bcontents_at (hist : list bset) (v : version) : gmap (list byte) value := bcontents (take (S (N.to_nat v)) hist).
Definition keys_of (hist : list bset) : list (list byte) := (concat hist).*1.
Inductive bop : Type := BCommit (sets : list bset) | BCommitP (sets : list bset) | BPurge (least_readable : version).
Definition bop_sets (o : bop) : list bset := match o with BCommit s => s | BCommitP s => s | BPurge _ => [] end.
Definition bhistory (ops : list bop) : list bset := flat_map bop_sets ops.
Definition keys_upto (ops : list bop) (v : version) : list (list byte) := keys_of (take (S (N.to_nat v)) (bhistory ops)).

Section keys.
Context (H : list byte -> bytes32).
Definition collision (K : list (list byte)) : Prop := exists a b, a ∈ K /\ b ∈ K /\ a <> b /\ H a = H b.
(** what the client passes to the library *)
Definition hash_set (s : bset) : list (key * option value) := map (fun w => (key_hash H w.1, w.2)) s.
Definition hash_op (o : bop) : op := match o with BCommit s => Commit (map hash_set s) | BCommitP s => CommitP (map hash_set s) | BPurge l => Purge l end.
(** the map with hashed keys *)
Definition hash_map (m : gmap (list byte) value) : gmap key value := list_to_map (map (fun e => (key_hash H e.1, e.2)) (map_to_list m)).

(** *** Proof *)
Lemma collision_or K : collision K \/ forall a b, a ∈ K -> b ∈ K -> H a = H b -> a = b.
Proof.
  destruct (decide (Forall (fun a => Forall (fun b => H a = H b -> a = b) K) K)) as [F|F].
  - right. intros a b Ha Hb. rewrite Forall_forall in F. specialize (F a Ha). rewrite Forall_forall in F. by apply F.
  - left. apply not_Forall_Exists in F; [|apply _]. apply Exists_exists in F as (a & Ha & F). apply not_Forall_Exists in F; [|apply _]. apply Exists_exists in F as (b & Hb & F).
    exists a, b. split; [done|]. split; [done|]. destruct (decide (H a = H b)) as [E|E]; [|exfalso; apply F; intros Z; done]. split; [|done]. intros ->. by apply F.
Qed.
Definition tracks (K : list (list byte)) (m : gmap key value) (bm : gmap (list byte) value) : Prop :=
  (forall q, q ∈ K -> m !! H q = bm !! q) /\ (forall k x, m !! k = Some x -> exists q, q ∈ K /\ k = H q) /\ (forall q, is_Some (bm !! q) -> q ∈ K).
Lemma tracks_write K : (forall a b, a ∈ K -> b ∈ K -> H a = H b -> a = b) -> forall l m bm, l.*1 ⊆ K -> tracks K m bm -> tracks K (apply_set m (hash_set l)) (fold_left bwrite l bm).
Proof.
  intros Inj. induction l as [|[q x] l IH]; intros m bm Sub T; [exact T|]. cbn [hash_set map]. unfold apply_set. cbn [fold_left]. apply IH; [set_solver|]. clear IH.
  assert (Hq : q ∈ K) by set_solver. destruct T as (T1 & T2 & T3). unfold apply_write, bwrite. cbn [fst snd]. unfold key_hash. destruct x as [x|]; (split; [|split]).
  - intros q' Hq'. destruct (decide (q = q')) as [->|N]; [by rewrite !lookup_insert|]. rewrite !lookup_insert_ne; [by apply T1|done|]. intros E. by apply N, Inj.
  - intros k y. destruct (decide (H q = k)) as [<-|N]; [intros _; by exists q|]. rewrite lookup_insert_ne by done. apply T2.
  - intros q'. destruct (decide (q = q')) as [->|N]; [done|]. rewrite lookup_insert_ne by done. apply T3.
  - intros q' Hq'. destruct (decide (q = q')) as [->|N]; [by rewrite !lookup_delete|]. rewrite !lookup_delete_ne; [by apply T1|done|]. intros E. by apply N, Inj.
  - intros k y. destruct (decide (H q = k)) as [<-|N]; [by rewrite lookup_delete|]. rewrite lookup_delete_ne by done. apply T2.
  - intros q'. destruct (decide (q = q')) as [->|N]; [done|]. rewrite lookup_delete_ne by done. apply T3.
Qed.
Lemma apply_sets_concat m sets : apply_sets m sets = apply_set m (concat sets).
Proof. revert m. induction sets as [|s sets IH]; intros m; [done|]. cbn [concat]. unfold apply_sets, apply_set in *. cbn [fold_left]. by rewrite IH, fold_left_app. Qed.
Lemma history_hash ops : history (map hash_op ops) = map hash_set (bhistory ops).
Proof. induction ops as [|o ops IH]; [done|]. unfold history, bhistory in *. cbn [map flat_map]. rewrite map_app, IH. by destruct o. Qed.
Lemma concat_hash l : concat (map hash_set l) = hash_set (concat l).
Proof. unfold hash_set. symmetry. apply concat_map. Qed.
Lemma tracks_at K ops v : (forall a b, a ∈ K -> b ∈ K -> H a = H b -> a = b) -> keys_upto ops v ⊆ K -> tracks K (contents_at (history (map hash_op ops)) v) (bcontents_at (bhistory ops) v).
Proof.
  intros Inj Sub. unfold contents_at, bcontents_at, bcontents. rewrite history_hash, firstn_map, apply_sets_concat, concat_hash. apply tracks_write; [done|exact Sub|].
  split; [intros; by rewrite !lookup_empty|]. split; [intros k x; by rewrite lookup_empty|]. intros q [x E]. by rewrite lookup_empty in E.
Qed.
Lemma hash_nodup (K : list (list byte)) (bm : gmap (list byte) value) : (forall a b, a ∈ K -> b ∈ K -> H a = H b -> a = b) -> (forall q, is_Some (bm !! q) -> q ∈ K) -> NoDup (map (fun e : list byte * value => (H e.1, e.2)) (map_to_list bm)).*1.
Proof.
  intros Inj T3. set (l := map_to_list bm). assert (El : forall q x, (q, x) ∈ l <-> bm !! q = Some x) by (intros; apply elem_of_map_to_list).
  assert (E : (map (fun e : list byte * value => (H e.1, e.2)) l).*1 = H <$> l.*1) by (clear; induction l as [|e l IH]; [done|]; cbn [map fmap list_fmap fst]; f_equal; exact IH).
  rewrite E. apply NoDup_fmap_2_strong; [|apply NoDup_fst_map_to_list]. intros a b Ha Hb Eab. apply Inj; [| |exact Eab]; apply T3.
  - apply elem_of_list_fmap in Ha as ([q x] & -> & Ha). apply El in Ha. by exists x.
  - apply elem_of_list_fmap in Hb as ([q x] & -> & Hb). apply El in Hb. by exists x.
Qed.
Lemma tracks_map (K : list (list byte)) m bm : (forall a b, a ∈ K -> b ∈ K -> H a = H b -> a = b) -> tracks K m bm -> m = hash_map bm.
Proof.
  intros Inj (T1 & T2 & T3). unfold hash_map, key_hash. pose proof (hash_nodup K bm Inj T3) as ND.
  apply map_eq. intros k. apply option_eq. intros x. rewrite <- elem_of_list_to_map by exact ND. split.
  - intros E. destruct (T2 k x E) as (q & Hq & ->). apply elem_of_list_In, in_map_iff. exists (q, x). split; [done|]. apply elem_of_list_In, elem_of_map_to_list. by rewrite <- T1.
  - intros E. apply elem_of_list_In, in_map_iff in E as ([q y] & [= <- <-] & E). apply elem_of_list_In, elem_of_map_to_list in E. rewrite T1; [done|]. apply T3. by exists y.
Qed.
Lemma tracks_size (K : list (list byte)) m bm : (forall a b, a ∈ K -> b ∈ K -> H a = H b -> a = b) -> tracks K m bm -> size m = size bm.
Proof.
  intros Inj T. rewrite (tracks_map K m bm Inj T). unfold hash_map, key_hash. destruct T as (_ & _ & T3).
  unfold size, map_size. rewrite (Permutation_length (map_to_list_to_map _ (hash_nodup K bm Inj T3))). apply map_length.
Qed.

(** *** C87 *)
(** get and get_with_proof for the key [q] *)
Theorem C87_reads (ops : list bop) st xs v (q : list byte) : run H (map hash_op ops) = Ok (st, xs) -> readable (map hash_op ops) v -> let bm := bcontents_at (bhistory ops) v in
  collision (q :: keys_upto ops v) \/
  get (store_reader st) (key_hash H q) v = Ok (bm !! q) /\
  exists p r, get_with_proof H (store_reader st) (key_hash H q) v = Ok (bm !! q, p) /\ get_root_hash H (store_reader st) v = Ok r /\ verify H p r (key_hash H q) (bm !! q) = Ok tt.
Proof.
  intros R Rv bm. destruct (collision_or (q :: keys_upto ops v)) as [C|Inj]; [by left|right]. destruct (tracks_at _ ops v Inj ltac:(set_solver)) as (T1 & _).
  destruct (view_reader H _ _ _ (run_view H _ _ _ v R Rv)) as (A1 & A2 & A3 & _). specialize (T1 q ltac:(set_solver)). unfold key_hash. fold bm in T1. rewrite A1, T1. split; [done|].
  destruct (A2 (H q)) as (p & E & V). rewrite T1 in E, V. exists p, (smt_root H (contents_at (history (map hash_op ops)) v)). done.
Qed.
(** the number of entries, the root, and the iterators: those of the map with hashed keys *)
Theorem C87_tree (ops : list bop) st xs v : run H (map hash_op ops) = Ok (st, xs) -> readable (map hash_op ops) v -> let bm := bcontents_at (bhistory ops) v in
  collision (keys_upto ops v) \/
  get_leaf_count (store_reader st) v = Ok (size bm) /\ get_root_hash H (store_reader st) v = Ok (smt_root H (hash_map bm)) /\
  (forall k x, hash_map bm !! k = Some x <-> exists q, k = key_hash H q /\ bm !! q = Some x) /\
  forall start, exists it, iter_new (store_reader st) v start = Ok it /\ yields (store_reader st) it (entries_from start (hash_map bm)).
Proof.
  intros R Rv bm. destruct (collision_or (keys_upto ops v)) as [C|Inj]; [by left|right]. pose proof (tracks_at _ ops v Inj ltac:(set_solver)) as T. fold bm in T.
  destruct (view_reader H _ _ _ (run_view H _ _ _ v R Rv)) as (_ & _ & A3 & _ & A5 & _ & _ & _ & A9 & _). rewrite A5, A3.
  rewrite (tracks_size _ _ _ Inj T). pose proof (tracks_map _ _ _ Inj T) as E. split; [done|]. split; [by rewrite E|]. split.
  - intros k x. rewrite <- E. destruct T as (T1 & T2 & T3). unfold key_hash. split.
    + intros Ek. destruct (T2 k x Ek) as (q & Hq & ->). exists q. split; [done|]. by rewrite <- T1.
    + intros (q & -> & Eq). rewrite T1; [done|]. apply T3. by exists x.
  - intros start. destruct (A9 start) as (it & I & Y). exists it. split; [done|]. by rewrite <- E.
Qed.
(** A verified proof for the key [q]: it shows the value that was last written under [q]. *)
Theorem C87_existence_sound (ops : list bop) st xs v r p (q : list byte) x : run H (map hash_op ops) = Ok (st, xs) -> readable (map hash_op ops) v ->
  get_root_hash H (store_reader st) v = Ok r -> verify_existence H p r (key_hash H q) x = Ok tt ->
  bcontents_at (bhistory ops) v !! q = Some x \/ collision (q :: keys_upto ops v) \/ hash_broken H (x :: root_inputs H (contents_at (history (map hash_op ops)) v) ++ proof_inputs H (key_hash H q) p).
Proof.
  intros R Rv Er V. destruct (C03_root_hash H _ _ _ _ R Rv) as [Er' _]. rewrite Er in Er'. apply Ok_inj in Er'. subst r.
  destruct (collision_or (q :: keys_upto ops v)) as [C|Inj]; [auto|]. destruct (tracks_at _ ops v Inj ltac:(set_solver)) as (T1 & _). rewrite <- T1 by set_solver.
  destruct (C08_existence_soundness H _ _ _ _ V) as [E|B]; [by left|by right; right].
Qed.
Theorem C87_nonexistence_sound (ops : list bop) st xs v r p (q : list byte) : run H (map hash_op ops) = Ok (st, xs) -> readable (map hash_op ops) v ->
  get_root_hash H (store_reader st) v = Ok r -> verify_nonexistence H p r (key_hash H q) = Ok tt ->
  bcontents_at (bhistory ops) v !! q = None \/ collision (q :: keys_upto ops v) \/ hash_broken H (root_inputs H (contents_at (history (map hash_op ops)) v) ++ proof_inputs H (key_hash H q) p).
Proof.
  intros R Rv Er V. destruct (C03_root_hash H _ _ _ _ R Rv) as [Er' _]. rewrite Er in Er'. apply Ok_inj in Er'. subst r.
  destruct (collision_or (q :: keys_upto ops v)) as [C|Inj]; [auto|]. destruct (tracks_at _ ops v Inj ltac:(set_solver)) as (T1 & _). rewrite <- T1 by set_solver.
  destruct (C09_nonexistence_soundness H _ _ _ V) as [E|B]; [by left|by right; right].
Qed.
(** Two clients: equal roots mean equal maps of byte strings, and conversely. *)
Theorem C87_root (ops1 ops2 : list bop) st1 xs1 st2 xs2 v1 v2 r1 r2 : run H (map hash_op ops1) = Ok (st1, xs1) -> readable (map hash_op ops1) v1 -> run H (map hash_op ops2) = Ok (st2, xs2) -> readable (map hash_op ops2) v2 ->
  get_root_hash H (store_reader st1) v1 = Ok r1 -> get_root_hash H (store_reader st2) v2 = Ok r2 ->
  (r1 = r2 <-> bcontents_at (bhistory ops1) v1 = bcontents_at (bhistory ops2) v2) \/ collision (keys_upto ops1 v1 ++ keys_upto ops2 v2) \/
  hash_broken H (root_inputs H (contents_at (history (map hash_op ops1)) v1) ++ root_inputs H (contents_at (history (map hash_op ops2)) v2)).
Proof.
  intros R1 Rv1 R2 Rv2 E1 E2. destruct (C03_root_hash H _ _ _ _ R1 Rv1) as [E1' _]. rewrite E1 in E1'. apply Ok_inj in E1'. subst r1. destruct (C03_root_hash H _ _ _ _ R2 Rv2) as [E2' _]. rewrite E2 in E2'. apply Ok_inj in E2'. subst r2.
  set (K := keys_upto ops1 v1 ++ keys_upto ops2 v2). destruct (collision_or K) as [C|Inj]; [auto|].
  pose proof (tracks_at K ops1 v1 Inj ltac:(unfold K; set_solver)) as T1. pose proof (tracks_at K ops2 v2 Inj ltac:(unfold K; set_solver)) as T2. clearbody K.
  set (m1 := contents_at _ v1) in *. set (m2 := contents_at _ v2) in *. set (b1 := bcontents_at _ v1) in *. set (b2 := bcontents_at _ v2) in *.
  assert (G : b1 = b2 -> m1 = m2) by (intros E; by rewrite (tracks_map _ _ _ Inj T1), (tracks_map _ _ _ Inj T2), E).
  destruct (decide (smt_root H m1 = smt_root H m2)) as [E|E].
  - destruct (C10_root_binding H m1 m2 E) as [Em|B]; [|auto]. left. split; [intros _|done]. apply map_eq. intros q.
    destruct T1 as (A1 & _ & A3), T2 as (B1 & _ & B3). destruct (decide (q ∈ K)) as [Hq|Hq]; [by rewrite <- A1, <- B1, Em|].
    destruct (b1 !! q) as [x|] eqn:X1; [exfalso; apply Hq, A3; by exists x|]. destruct (b2 !! q) as [x|] eqn:X2; [exfalso; apply Hq, B3; by exists x|done].
  - left. split; [done|]. intros Eb. exfalso. apply E. by rewrite G.
Qed.
End keys.

(** *** A concrete case: a client with the keys "a", "ab" and "b". *)
Definition byte_demo : list bop := [BCommit [[([x61], Some va); ([x62], Some vb)]; [([x61; x62], Some vc)]]; BPurge 1; BCommitP [[([x61], None); ([x62], Some va)]]].
Theorem demo_byte_keys : exists st xs, run toy (map (hash_op toy) byte_demo) = Ok (st, xs) /\ readable (map (hash_op toy) byte_demo) 2 /\ ~ collision toy ([x61] :: keys_upto byte_demo 2) /\
  bcontents_at (bhistory byte_demo) 2 = {[ [x61; x62] := vc; [x62] := va ]} /\
  get (store_reader st) (key_hash toy [x61]) 2 = Ok None /\ get (store_reader st) (key_hash toy [x62]) 2 = Ok (Some va) /\ get_leaf_count (store_reader st) 2 = Ok 2.
Proof.
  destruct (run_ok toy (map (hash_op toy) byte_demo)) as (st & xs & R & _). exists st, xs. split; [exact R|].
  assert (Rv : readable (map (hash_op toy) byte_demo) 2) by (split; vm_compute; [discriminate|reflexivity]). split; [exact Rv|].
  assert (NC : forall q, q ∈ [[x61]; [x62]] -> ~ collision toy (q :: keys_upto byte_demo 2)).
  { intros q Hq (a & b & Ha & Hb & Nab & E). apply elem_of_cons in Hq as [->|Hq]; [|apply elem_of_list_singleton in Hq as ->].
    - assert (D : distinct_b (map (fun x => (x, toy x)) ([x61] :: keys_upto byte_demo 2)) = true) by (vm_compute; reflexivity). by apply Nab, (distinct_b_spec toy _ D).
    - assert (D : distinct_b (map (fun x => (x, toy x)) ([x62] :: keys_upto byte_demo 2)) = true) by (vm_compute; reflexivity). by apply Nab, (distinct_b_spec toy _ D). }
  assert (N1 : ~ collision toy ([x61] :: keys_upto byte_demo 2)) by (apply NC; left). assert (N2 : ~ collision toy ([x62] :: keys_upto byte_demo 2)) by (apply NC; right; left). clear NC.
  split; [exact N1|]. assert (Eb : bcontents_at (bhistory byte_demo) 2 = {[ [x61; x62] := vc; [x62] := va ]}) by (apply (bool_decide_eq_true_1 _); vm_compute; reflexivity). split; [exact Eb|].
  destruct (C87_reads toy byte_demo st xs 2 [x61] R Rv) as [C|[E _]]; [exfalso; exact (N1 C)|].
  destruct (C87_reads toy byte_demo st xs 2 [x62] R Rv) as [C|[E2 _]]; [exfalso; exact (N2 C)|].
  destruct (C87_tree toy byte_demo st xs 2 R Rv) as [(a & b & Ha & Hb & N & Eab)|[E3 _]]; [exfalso; apply N1; exists a, b; split; [right; exact Ha|]; split; [right; exact Hb|]; split; [exact N|exact Eab]|]. clear R. rewrite Eb in E, E2, E3.
  assert (X1 : ({[ [x61; x62] := vc; [x62] := va ]} : gmap (list byte) value) !! [x61] = None) by (vm_compute; reflexivity).
  assert (X2 : ({[ [x61; x62] := vc; [x62] := va ]} : gmap (list byte) value) !! [x62] = Some va) by (vm_compute; reflexivity).
  assert (X3 : size ({[ [x61; x62] := vc; [x62] := va ]} : gmap (list byte) value) = 2) by (vm_compute; reflexivity).
  rewrite X1 in E. rewrite X2 in E2. rewrite X3 in E3. split; [exact E|]. split; [exact E2|exact E3].
Qed.
