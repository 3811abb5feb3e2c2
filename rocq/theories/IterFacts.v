(** The iterator on a stored canonical tree (C26, C27 core). *)
From Verif Require Import Base Spec SpecOrder NodeType ProofDef TreeCache Tree Iterator KeyFacts SmtFacts ProofFacts NodeFacts Canon CanonSib ReadFacts PutFacts KeyOrder OrderFacts.
From Coq Require Import Lia.
Local Opaque Spec.smt.

(** *** 16-bit words *)
Definition nbit (n : nibble) : N := (2 ^ nib_to_N n)%N.
Lemma shl16_one n : shl16 1 (nib_to_N n) = nbit n.
Proof. destruct n as [[] [] [] []]; reflexivity. Qed.
Lemma tz_nbit n : trailing_zeros (nbit n) = nib_to_N n.
Proof. destruct n as [[] [] [] []]; reflexivity. Qed.
Lemma lz_nbit n : leading_zeros (nbit n) = (15 - nib_to_N n)%N.
Proof. destruct n as [[] [] [] []]; reflexivity. Qed.
Lemma testbit_le x i : N.testbit x i = true -> (2 ^ i <= x)%N.
Proof.
  intros T. destruct (N.lt_ge_cases x (2 ^ i)) as [L|L]; [|done]. rewrite (N.bits_above_log2 x i) in T; [done|].
  destruct (N.eq_dec x 0) as [->|Z]; [rewrite N.bits_0 in T; done|]. apply N.log2_lt_pow2; lia.
Qed.
Lemma land_pow2 i x : (N.land (2 ^ i) x =? 0)%N = negb (N.testbit x i).
Proof.
  destruct (N.testbit x i) eqn:T; cbn [negb].
  - apply N.eqb_neq. intros Z. apply (f_equal (fun y => N.testbit y i)) in Z. rewrite N.land_spec, N.pow2_bits_true, T, N.bits_0 in Z. done.
  - apply N.eqb_eq. apply N.bits_inj. intros j. rewrite N.land_spec, N.bits_0, N.pow2_bits_eqb. destruct (N.eqb_spec i j) as [->|]; [by rewrite T|done].
Qed.
Lemma shl16_pow2 i : (i < 15)%N -> shl16 (2 ^ i) 1 = (2 ^ (i + 1))%N.
Proof.
  intros L. unfold shl16. rewrite N.shiftl_mul_pow2, <- N.pow_add_r. change 65535%N with (N.ones 16). rewrite N.land_ones, N.mod_small; [done|].
  apply N.pow_lt_mono_r; lia.
Qed.
Lemma seek_spec x : forall f i j, (i <= j < 16)%N -> N.testbit x j = true -> (forall l, (i <= l < j)%N -> N.testbit x l = false) -> N.to_nat (j - i) <= f ->
  seek f x (2 ^ i) = Ok (2 ^ j)%N.
Proof.
  induction f as [|f IH]; intros i j L T F Lf.
  - assert (i = j) as -> by lia. cbn [seek]. by rewrite land_pow2, T.
  - cbn [seek]. rewrite land_pow2. destruct (N.testbit x i) eqn:Ti; cbn [negb].
    + destruct (N.eq_dec i j) as [->|Ne]; [done|]. rewrite F in Ti by lia. done.
    + assert (i <> j) by (intros ->; congruence). rewrite shl16_pow2 by lia. apply IH; [lia|done| |lia]. intros l Hl. apply F. lia.
Qed.
Lemma lz_spec x m : N.testbit x (nib_to_N m) = true -> (forall n, nib_lt m n -> N.testbit x (nib_to_N n) = false) ->
  leading_zeros x = (15 - nib_to_N m)%N.
Proof.
  intros T F. unfold leading_zeros.
  assert (G : forall i, (nib_to_N m < i)%N -> (i < 16)%N -> N.testbit x i = false).
  { intros i L1 L2. rewrite <- (nib_to_of_N i) by done. apply F. unfold nib_lt. by rewrite nib_to_of_N. }
  assert (E : find (fun i => N.testbit x i) (rev bit_positions) = Some (nib_to_N m)).
  { change (rev bit_positions) with [15;14;13;12;11;10;9;8;7;6;5;4;3;2;1;0]%N.
    clear F. destruct m as [[] [] [] []]; match type of T with N.testbit _ ?q = _ => let c := eval compute in q in change q with c in * end; cbn [find];
    repeat match goal with |- context [N.testbit x ?i] => rewrite (G i) by lia; cbv iota end; rewrite T; reflexivity. }
  by rewrite E.
Qed.

Lemma seek_nib x n j : (n = j \/ nib_lt n j) -> N.testbit x (nib_to_N j) = true ->
  (forall i, (n = i \/ nib_lt n i) -> nib_lt i j -> N.testbit x (nib_to_N i) = false) -> seek 16 x (nbit n) = Ok (nbit j).
Proof.
  intros L T F. pose proof (nib_to_N_lt j). assert (nib_to_N n <= nib_to_N j)%N by (destruct L as [->|L]; [done|unfold nib_lt in L; lia]).
  apply seek_spec; [lia|done| |lia]. intros l Hl. assert (Hl' : (l < 16)%N) by lia. rewrite <- (nib_to_of_N l) by done. apply F.
  - destruct (N.eq_dec (nib_to_N n) l) as [<-|]; [left; by rewrite nib_of_to_N|right]. unfold nib_lt. rewrite nib_to_of_N by done. lia.
  - unfold nib_lt. rewrite nib_to_of_N by done. lia.
Qed.
Lemma seek_nib_next x n j : nib_lt n j -> N.testbit x (nib_to_N j) = true ->
  (forall i, nib_lt n i -> nib_lt i j -> N.testbit x (nib_to_N i) = false) -> seek 16 x (shl16 (nbit n) 1) = Ok (nbit j).
Proof.
  intros L T F. pose proof (nib_to_N_lt j). unfold nib_lt in L. unfold nbit. rewrite shl16_pow2 by lia.
  apply seek_spec; [lia|done| |lia]. intros l Hl. assert (Hl' : (l < 16)%N) by lia. rewrite <- (nib_to_of_N l) by done. apply F; unfold nib_lt; rewrite nib_to_of_N by done; lia.
Qed.
Lemma nbit_le x n j : (n = j \/ nib_lt n j) -> N.testbit x (nib_to_N j) = true -> (nbit n <=? x)%N = true.
Proof.
  intros L T. apply N.leb_le. pose proof (testbit_le _ _ T). unfold nbit. transitivity (2 ^ nib_to_N j)%N; [|done]. apply N.pow_le_mono_r; [lia|].
  destruct L as [->|L]; [done|unfold nib_lt in L; lia].
Qed.
(** *** frames *)
Local Opaque seek nbit shl16 leading_zeros trailing_zeros.
Section it.
Context (H : list byte -> bytes32) (m : gmap key value) (ver : list nibble -> version) (rd : reader) (v : version).
Notation M := (H <$> m).
Lemma U_fm p : U p M = H <$> U p m.
Proof. unfold U. apply under_fmap. Qed.
Lemma U_fm_ne p : U p M <> ∅ <-> U p m <> ∅.
Proof. rewrite U_fm. by rewrite fmap_empty_iff. Qed.
Lemma U_fm_size p : size (U p M) = size (U p m).
Proof. rewrite U_fm. apply map_size_fmap. Qed.

Definition ents p (l : list nibble) : list (key * value) := flat_map (fun n => entries (U (p ++ [n]) m)) l.
Global Instance nib_lt_dec n j : Decision (nib_lt n j).
Proof. unfold nib_lt. apply _. Defined.
Definition gts (n : nibble) : list nibble := filter (nib_lt n) all_nibbles.
Definition egt p n := ents p (gts n).
Definition ege p n := entries (U (p ++ [n]) m) ++ egt p n.

Lemma entries_nil {A} (m0 : gmap key A) : entries m0 = [] <-> m0 = ∅.
Proof. rewrite <- map_size_empty_iff, <- entries_length. split; [intros ->; done|apply nil_length_inv]. Qed.
Lemma ents_nil p l : ents p l = [] <-> forall n, n ∈ l -> U (p ++ [n]) m = ∅.
Proof.
  unfold ents. induction l as [|a l IH]; cbn [flat_map].
  - split; [intros _ n ?%elem_of_nil; done|done].
  - rewrite app_nil. rewrite IH, entries_nil. setoid_rewrite elem_of_cons. split; [intros [? ?] n [->|]; auto|]. intros F. split; [apply F; by left|intros; apply F; by right].
Qed.
Lemma ents_first p l : ents p l <> [] -> exists j l1 l2, l = l1 ++ j :: l2 /\ (forall i, i ∈ l1 -> U (p ++ [i]) m = ∅) /\ U (p ++ [j]) m <> ∅ /\
  ents p l = entries (U (p ++ [j]) m) ++ ents p l2.
Proof.
  induction l as [|a l IH]; [done|]. intros Ne. destruct (decide (U (p ++ [a]) m = ∅)) as [E|E].
  - cbn [ents flat_map] in Ne. rewrite E, entries_empty in Ne. destruct (IH Ne) as (j & l1 & l2 & -> & F & Hj & E2).
    exists j, (a :: l1), l2. split; [done|]. split; [|split; [done|]].
    + intros i [->|Hi]%elem_of_cons; auto.
    + cbn [ents flat_map]. rewrite E, entries_empty. exact E2.
  - exists a, [], l. split; [done|]. split; [intros i ?%elem_of_nil; done|]. done.
Qed.
Lemma nib_lt_trans a b c : nib_lt a b -> nib_lt b c -> nib_lt a c.
Proof. unfold nib_lt. lia. Qed.
Lemma sorted_split (l1 l2 : list nibble) j : StronglySorted nib_lt (l1 ++ j :: l2) -> filter (nib_lt j) (l1 ++ j :: l2) = l2 /\ (forall i, i ∈ l1 -> nib_lt i j).
Proof.
  induction l1 as [|a l1 IH]; cbn [app]; intros S; apply StronglySorted_inv in S as [S F].
  - split; [|intros i ?%elem_of_nil; done]. rewrite filter_cons_False by (unfold nib_lt; lia). rewrite Forall_forall in F.
    clear -F. induction l2 as [|b l2 IH]; [done|]. rewrite filter_cons_True by (apply F; by left). f_equal. apply IH. intros; apply F. by right.
  - destruct (IH S) as [E1 E2]. rewrite Forall_forall in F. assert (Lt : nib_lt a j) by (apply F, elem_of_app; right; by left).
    split; [rewrite filter_cons_False by (unfold nib_lt in *; lia); done|]. intros i [->|Hi]%elem_of_cons; auto.
Qed.
Lemma gts_sorted n : StronglySorted nib_lt (gts n).
Proof. unfold gts. destruct n as [[] [] [] []]; (vm_compute; repeat (constructor; [|repeat (constructor; [reflexivity|]); constructor]); constructor). Qed.
Lemma gts_first n l1 j l2 : gts n = l1 ++ j :: l2 -> l2 = gts j /\ nib_lt n j /\ forall i, nib_lt n i -> nib_lt i j -> i ∈ l1.
Proof.
  intros E. pose proof (gts_sorted n) as S. rewrite E in S. destruct (sorted_split _ _ _ S) as [E1 E2].
  assert (Hj : nib_lt n j) by (assert (I : j ∈ gts n) by (rewrite E; apply elem_of_app; right; by left); by apply elem_of_list_filter in I as [? _]).
  split; [|split; [done|]].
  - rewrite <- E1, <- E. unfold gts. rewrite list_filter_filter. apply list_filter_iff. intros i. split; [by intros [? ?]|]. intros L. split; [done|by eapply nib_lt_trans].
  - intros i L1 L2. assert (I : i ∈ gts n) by (apply elem_of_list_filter; split; [done|apply all_nibbles_complete]).
    rewrite E in I. apply elem_of_app in I as [|I]; [done|]. exfalso. apply elem_of_cons in I as [->|I]; [unfold nib_lt in *; lia|].
    rewrite <- E1 in I. apply elem_of_list_filter in I as [I _]. unfold nib_lt in *. lia.
Qed.
Lemma egt_nil p n : egt p n = [] <-> forall j, nib_lt n j -> U (p ++ [j]) m = ∅.
Proof.
  unfold egt. rewrite ents_nil. unfold gts. setoid_rewrite elem_of_list_filter. split.
  - intros F j L. apply F. split; [done|apply all_nibbles_complete].
  - intros F j [L _]. by apply F.
Qed.
(** the next present child after [n] *)
Lemma egt_next p n : egt p n <> [] -> exists j, nib_lt n j /\ U (p ++ [j]) m <> ∅ /\ egt p n = ege p j /\ forall i, nib_lt n i -> nib_lt i j -> U (p ++ [i]) m = ∅.
Proof.
  intros Ne. destruct (ents_first p _ Ne) as (j & l1 & l2 & E & F & Hj & E2). apply gts_first in E as (-> & L & G).
  exists j. split_and!; [done|done|exact E2|]. intros i L1 L2. by apply F, G.
Qed.
Lemma max_present p n : U (p ++ [n]) m <> ∅ -> exists j, U (p ++ [j]) m <> ∅ /\ (forall i, nib_lt j i -> U (p ++ [i]) m = ∅) /\ (n = j \/ nib_lt n j) /\ (egt p n = [] <-> n = j).
Proof.
  intros Hn. assert (G : forall c n, U (p ++ [n]) m <> ∅ -> N.to_nat (15 - nib_to_N n) <= c -> exists j, U (p ++ [j]) m <> ∅ /\ (forall i, nib_lt j i -> U (p ++ [i]) m = ∅) /\ (n = j \/ nib_lt n j) /\ (egt p n = [] <-> n = j)).
  { clear n Hn. induction c as [|c IH]; intros n Hn L.
    - exists n. pose proof (nib_to_N_lt n). assert (Z : forall i, nib_lt n i -> U (p ++ [i]) m = ∅) by (intros i Hi; pose proof (nib_to_N_lt i); unfold nib_lt in Hi; lia).
      split_and!; [done|done|by left|]. split; [done|]. intros _. by apply egt_nil.
    - destruct (decide (egt p n = [])) as [E|E].
      + exists n. split_and!; [done|by apply egt_nil|by left|]. done.
      + destruct (egt_next p n E) as (j & L1 & Hj & _). destruct (IH j Hj) as (j' & Hj' & F & L2 & _); [unfold nib_lt in L1; pose proof (nib_to_N_lt j); lia|].
        exists j'. assert (nib_lt n j') by (destruct L2 as [->|]; [done|by eapply nib_lt_trans]). split_and!; [done|done|by right|]. split; [done|]. intros ->. unfold nib_lt in *. lia. }
  by apply (G _ n Hn (le_n _)).
Qed.

Record frame (x : visit_info) (p : list nibble) (n : nibble) : Prop := {
  fr_key : (vi_key x).2 = p;
  fr_many : 2 <= size (U p m);
  fr_node : exists s, vi_node x = mkInternal (children_of H M ver p) s;
  fr_bm : forall j, N.testbit (vi_bitmap x) (nib_to_N j) = bool_decide (U (p ++ [j]) m <> ∅);
  fr_next : vi_next x = nbit n;
  fr_has : U (p ++ [n]) m <> ∅ }.

Lemma bitmaps_canon p s : exists bm, generate_bitmaps (mkInternal (children_of H M ver p) s) = Ok bm /\
  forall j, N.testbit bm.1 (nib_to_N j) = bool_decide (U (p ++ [j]) m <> ∅).
Proof.
  destruct (generate_bitmaps_spec (mkInternal (children_of H M ver p) s)) as (bm & E & B). exists bm. split; [done|]. intros j.
  destruct (B j) as [-> _]; [rewrite nibs_nil; apply all_nibbles_complete|]. cbn [in_children]. rewrite children_of_lookup. apply bool_decide_ext.
  rewrite <- U_fm_ne. split.
  - intros [c Hc] Z. apply (child_of_none H _ ver) in Z. congruence.
  - intros Ne. destruct (child_of_some H _ ver _ _ Ne) as (c & -> & _). done.
Qed.
(** a frame pointing at the first child not before [n] *)
Lemma visit_at p n j s nk : 2 <= size (U p m) -> nk.2 = p -> (n = j \/ nib_lt n j) -> U (p ++ [j]) m <> ∅ ->
  (forall i, (n = i \/ nib_lt n i) -> nib_lt i j -> U (p ++ [i]) m = ∅) ->
  exists x, visit_new_at nk (mkInternal (children_of H M ver p) s) n = Ok x /\ frame x p j.
Proof.
  intros Hm Hp Lj Hj F. destruct (bitmaps_canon p s) as (bm & Eb & B). unfold visit_new_at. rewrite Eb, bind_Ok, shl16_one.
  assert (Tj : N.testbit bm.1 (nib_to_N j) = true) by (rewrite B; by apply bool_decide_eq_true).
  rewrite (nbit_le _ n j) by done. cbn [assert_]. rewrite bind_Ok. rewrite (seek_nib _ n j).
  - rewrite bind_Ok. eexists. split; [reflexivity|]. constructor; cbn [vi_key vi_node vi_bitmap vi_next]; [done|done|by eexists|done|done|done].
  - done.
  - done.
  - intros i Li Li2. rewrite B. apply bool_decide_eq_false. intros Ne. apply Ne, F; done.
Qed.
Lemma visit_new_ok p s nk : 2 <= size (U p m) -> nk.2 = p -> exists x j, visit_new nk (mkInternal (children_of H M ver p) s) = Ok x /\ frame x p j /\
  entries (U p m) = ege p j.
Proof.
  intros Hm Hp. destruct (bitmaps_canon p s) as (bm & Eb & B).
  assert (Lp : length p < 64) by by eapply U_many_len. pose proof (entries_U p m Lp) as EU. 
  assert (Ne : ents p all_nibbles <> []).
  { unfold ents. rewrite <- EU. rewrite entries_nil. apply size_ne. lia. }
  destruct (ents_first p _ Ne) as (j & l1 & l2 & E & F & Hj & E2).
  pose proof all_nibbles_sorted as S. rewrite E in S. destruct (sorted_split _ _ _ S) as [E3 E4]. rewrite <- E in E3.
  assert (Tj : N.testbit bm.1 (nib_to_N j) = true) by (rewrite B; by apply bool_decide_eq_true).
  unfold visit_new. rewrite Eb, bind_Ok. rewrite (proj2 (N.eqb_neq _ _)) by (intros Z; rewrite Z, N.bits_0 in Tj; done). cbn [negb assert_]. rewrite bind_Ok.
  assert (Ez : trailing_zeros bm.1 = nib_to_N j).
  { rewrite trailing_zeros_set16. assert (set16 bm.1 = j :: filter (fun n => N.testbit bm.1 (nib_to_N n) = true) l2) as ->; [|done].
    unfold set16. rewrite E, filter_app. rewrite filter_cons_True by done. assert (filter (fun n => N.testbit bm.1 (nib_to_N n) = true) l1 = []) as ->; [|done].
    clear -F B. induction l1 as [|a l1 IH]; [done|]. rewrite filter_cons_False; [apply IH; intros; apply F; by right|].
    rewrite B, bool_decide_eq_true. intros Z. apply Z, F. by left. }
  rewrite Ez, shl16_one. eexists _, j. split; [reflexivity|]. split; [constructor; cbn [vi_key vi_node vi_bitmap vi_next]; [done|done|by eexists|done|done|done]|].
  rewrite EU. change (ents p all_nibbles = ege p j). rewrite E2. unfold ege, egt, gts. by rewrite E3.
Qed.
Lemma rightmost_ok x p n : frame x p n -> is_rightmost x = Ok (bool_decide (egt p n = [])).
Proof.
  intros [K Mn Nd B Nx Hn]. unfold is_rightmost. destruct (max_present p n Hn) as (j & Hj & F & L & Q).
  assert (Lz : leading_zeros (vi_bitmap x) = (15 - nib_to_N j)%N).
  { apply lz_spec; [rewrite B; by apply bool_decide_eq_true|]. intros i Hi. rewrite B. apply bool_decide_eq_false. intros Z. by apply Z, F. }
  rewrite Lz, Nx, lz_nbit. pose proof (nib_to_N_lt j). pose proof (nib_to_N_lt n).
  assert (nib_to_N n <= nib_to_N j)%N by (destruct L as [->|L]; [done|unfold nib_lt in L; lia]).
  rewrite (proj2 (N.leb_le _ _)) by lia. cbn [assert_]. rewrite bind_Ok. f_equal. symmetry.
  destruct (N.eqb_spec (15 - nib_to_N n) (15 - nib_to_N j)) as [E|E].
  - apply bool_decide_eq_true, Q, nib_to_N_inj. lia.
  - apply bool_decide_eq_false. intros Z%Q. subst. done.
Qed.
Lemma advance_ok x p n : frame x p n -> egt p n <> [] -> exists x' j, visit_advance x = Ok x' /\ frame x' p j /\ ege p j = egt p n.
Proof.
  intros Fr Ne. pose proof Fr as [K Mn Nd B Nx Hn]. unfold visit_advance. rewrite (rightmost_ok x p n Fr), bind_Ok. rewrite bool_decide_eq_false_2 by done. cbn [negb assert_]. rewrite bind_Ok.
  destruct (egt_next p n Ne) as (j & L & Hj & E & F). rewrite Nx. rewrite (seek_nib_next _ n j); [|done|rewrite B; by apply bool_decide_eq_true|].
  - rewrite bind_Ok. eexists _, j. split; [reflexivity|]. split; [constructor; cbn [vi_key vi_node vi_bitmap vi_next]; done|done].
  - intros i Li Li2. rewrite B. apply bool_decide_eq_false. intros Z. apply Z, F; done.
Qed.

(** *** stacks: top first; each frame sits on the child its parent is visiting *)
Fixpoint chain (st : list (visit_info * (list nibble * nibble))) (q : list nibble) : Prop :=
  match st with
  | [] => q = []
  | (x, (p, n)) :: st' => q = p ++ [n] /\ frame x p n /\ chain st' p
  end.
Definition egts (st : list (visit_info * (list nibble * nibble))) : list (key * value) :=
  flat_map (fun f => egt f.2.1 f.2.2) st.
Definition rest (st : list (visit_info * (list nibble * nibble))) : list (key * value) :=
  match st with [] => [] | f :: st' => ege f.2.1 f.2.2 ++ egts st' end.
Lemma cleanup_ok st : forall q, chain st q -> exists st' q', cleanup_stack st.*1 = Ok st'.*1 /\ chain st' q' /\ rest st' = egts st.
Proof.
  induction st as [|[x [p n]] st IH]; intros q C.
  - exists [], []. done.
  - cbn [chain] in C. destruct C as (-> & Fr & C). cbn [fmap list_fmap fst cleanup_stack]. rewrite (rightmost_ok x p n Fr), bind_Ok. case_bool_decide as E.
    + destruct (IH p C) as (st' & q' & E1 & E2 & E3). exists st', q'. split; [done|]. split; [done|]. cbn [egts flat_map fst snd]. by rewrite E.
    + destruct (advance_ok x p n Fr E) as (x' & j & Ea & Fr' & E2). rewrite Ea, bind_Ok. exists ((x', (p, j)) :: st), (p ++ [j]). split; [done|]. split; [done|].
      cbn [rest egts flat_map fst snd]. by rewrite E2.
Qed.

Context (St : stored H rd M ver v).
Context (Hval : forall p n k x, 2 <= size (U p m) -> U (p ++ [n]) m = {[ k := x ]} -> rd_value rd (ver (p ++ [n])) k = Some x).
Context (Hval0 : forall k x, m = {[ k := x ]} -> rd_value rd v k = Some x).

Lemma node_child p n : 2 <= size (U p m) -> U (p ++ [n]) m <> ∅ -> rd_get_node rd (ver (p ++ [n]), p ++ [n]) = Ok (node_at H M ver (p ++ [n])).
Proof.
  intros Hm Hn. destruct St as [_ K]. unfold rd_get_node. rewrite (K p); [done|by rewrite U_fm_size|by apply U_fm_ne].
Qed.
Lemma node_cases p : U p m <> ∅ -> (exists k x, U p m = {[ k := x ]} /\ node_at H M ver p = Leaf (LeafNode k (H x))) \/
  (2 <= size (U p m) /\ exists s, node_at H M ver p = Internal (mkInternal (children_of H M ver p) s)).
Proof.
  intros Ne. destruct (size_cases (U p m)) as [E|[(k & x & E)|Hm]]; [done|left|right].
  - exists k, x. split; [done|]. apply node_at_leaf. rewrite U_fm, E. apply map_fmap_singleton.
  - split; [done|]. eexists. apply node_at_internal. by rewrite U_fm_size.
Qed.

(** the descent of [next] *)
Lemma next_loop : forall fuel x p n st, chain ((x, (p, n)) :: st) (p ++ [n]) -> 65 <= fuel + length (p ++ [n]) ->
  exists k y st' q', iter_next_loop rd fuel v (x :: st.*1) = Ok (Some (k, y), mkIter v st'.*1 false) /\ chain st' q' /\
    rest ((x, (p, n)) :: st) = (k, y) :: rest st'.
Proof.
  induction fuel as [|f IH]; intros x p n st C Lf; pose proof C as (_ & Fr & C0); pose proof Fr as [K Mn (s & Nd) B Nx Hn];
    pose proof (U_len _ _ Hn) as L64; [lia|].
  cbn [iter_next_loop]. rewrite Nx, tz_nbit, nib_from_u8_nib, bind_Ok.
  assert (Hn' : U (p ++ [n]) M <> ∅) by by apply U_fm_ne.
  destruct (in_child_canon H M ver p s n Hn') as (c & Ec & Ev). rewrite Nd, Ec. cbn [unwrap]. rewrite bind_Ok. unfold gen_child. rewrite K, Ev.
  rewrite (node_child p n Mn Hn), bind_Ok. destruct (node_cases (p ++ [n]) Hn) as [(k & y & E & En)|(Hm & s' & En)]; rewrite En.
  - cbn [nk_version fst ln_key]. unfold rd_get_value. rewrite (Hval p n k y Mn E). cbn [ok_or]. rewrite bind_Ok.
    destruct (cleanup_ok _ _ C) as (st' & q' & E1 & E2 & E3). cbn [fmap list_fmap fst] in E1. rewrite E1, bind_Ok. exists k, y, st', q'. split; [done|]. split; [done|].
    rewrite E3. cbn [rest egts flat_map fst snd]. unfold ege. by rewrite E, entries_single.
  - destruct (visit_new_ok (p ++ [n]) s' (ver (p ++ [n]), p ++ [n]) Hm eq_refl) as (x' & j & Ex & Fr' & Ee). rewrite Ex, bind_Ok.
    destruct (IH x' (p ++ [n]) j ((x, (p, n)) :: st)) as (k & y & st' & q' & E1 & E2 & E3).
    + split; [done|]. split; [done|]. exact C.
    + rewrite !app_length in *. cbn [length] in *. lia.
    + exists k, y, st', q'. split; [exact E1|]. split; [done|]. rewrite <- E3. cbn [rest egts flat_map fst snd]. rewrite <- Ee. unfold ege. by rewrite <- app_assoc.
Qed.

(** what is left to yield *)
Inductive it_rest (it : jmt_iter) : list (key * value) -> Prop :=
| ir_done : it_version it = v -> it_done it = true -> it_rest it []
| ir_over : it_version it = v -> it_done it = false -> it_stack it = [] -> 2 <= size m -> it_rest it []
| ir_single k x : it_version it = v -> it_done it = false -> it_stack it = [] -> m = {[ k := x ]} -> it_rest it [(k, x)]
| ir_stack f st q : it_version it = v -> it_done it = false -> it_stack it = (f :: st).*1 -> chain (f :: st) q -> it_rest it (rest (f :: st)).
Lemma chain_many st : forall q, chain st q -> st <> [] -> 2 <= size m.
Proof.
  induction st as [|[x [p n]] st IH]; intros q C Ne; [done|]. destruct C as (_ & Fr & C). destruct st as [|g st].
  - cbn in C. subst p. destruct Fr as [_ Mn _ _ _ _]. by rewrite U_nil in Mn.
  - by eapply IH.
Qed.
Lemma rest_iter (st : list (visit_info * (list nibble * nibble))) q : chain st q -> 2 <= size m -> it_rest (mkIter v st.*1 false) (rest st).
Proof. intros C Hm. destruct st as [|f st]; [by apply ir_over|by eapply ir_stack]. Qed.
Lemma root_node : rd_get_node rd (nk_root v) = Ok (node_at H M ver []).
Proof. destruct St as [R _]. unfold rd_get_node, nk_root. by rewrite R. Qed.
Lemma iter_next_ok it l : it_rest it l -> match l with
  | [] => iter_next rd it = Ok (None, it)
  | kx :: l' => exists it', iter_next rd it = Ok (Some kx, it') /\ it_rest it' l'
  end.
Proof.
  intros R. unfold iter_next. destruct R as [Ev Ed|Ev Ed Es Hm|k x Ev Ed Es E|f st q Ev Ed Es C].
  - by rewrite Ed.
  - rewrite Ed, Es, Ev, root_node, bind_Ok. rewrite node_at_internal; [done|]. by rewrite U_fm_size, U_nil.
  - rewrite Ed, Es, Ev, root_node, bind_Ok. rewrite (node_at_leaf H M ver [] k (H x)) by (rewrite U_nil, E; apply map_fmap_singleton).
    cbn [ln_key]. unfold rd_get_value. rewrite (Hval0 k x E). cbn [ok_or]. rewrite bind_Ok. eexists. split; [done|]. by apply ir_done.
  - rewrite Ed, Es, Ev. destruct f as [x [p n]]. pose proof C as (-> & _). destruct (next_loop 65 x p n st C) as (k & y & st' & q' & E1 & E2 & E3).
    { rewrite app_length. cbn. lia. }
    rewrite E3. eexists. split; [exact E1|]. eapply rest_iter; [done|]. by apply (chain_many _ _ C).
Qed.

(** *** new *)
Definition from (start : key) (l : list (key * value)) : list (key * value) := filter (fun kx => key_ltb kx.1 start = false) l.
Lemma from_app start a b : from start (a ++ b) = from start a ++ from start b.
Proof. apply filter_app. Qed.
Lemma from_all start l : (forall a, a ∈ l -> key_lt start a.1) -> from start l = l.
Proof.
  intros F. unfold from. induction l as [|a l IH]; [done|]. rewrite filter_cons_True; [f_equal; apply IH; intros; apply F; by right|].
  apply key_ltb_ge. right. apply F. by left.
Qed.
Lemma from_none start l : (forall a, a ∈ l -> key_lt a.1 start) -> from start l = [].
Proof.
  intros F. unfold from. induction l as [|a l IH]; [done|]. rewrite filter_cons_False; [apply IH; intros; apply F; by right|].
  rewrite not_false_iff_true. apply key_ltb_lt. apply F. by left.
Qed.
Lemma all_split n : all_nibbles = filter (fun j => nib_lt j n) all_nibbles ++ n :: gts n.
Proof. unfold gts. destruct n as [[] [] [] []]; reflexivity. Qed.
Lemma ents_in p l a : a ∈ ents p l -> exists n, n ∈ l /\ (p ++ [n]) `prefix_of` key_nibbles a.1.
Proof.
  unfold ents. intros (n & Hn & E)%elem_of_list_In%in_flat_map. exists n. split; [by apply elem_of_list_In|]. destruct a as [k x].
  apply elem_of_list_In, entries_elem, U_lookup in E as [_ ?]. done.
Qed.
Lemma from_split p n start : length p < 64 -> (p ++ [n]) `prefix_of` key_nibbles start ->
  from start (entries (U p m)) = from start (entries (U (p ++ [n]) m)) ++ egt p n.
Proof.
  intros L P. rewrite (entries_U p m L). rewrite (all_split n), flat_map_app. cbn [flat_map]. rewrite !from_app. fold (ents p (filter (fun j => nib_lt j n) all_nibbles)).
  rewrite (from_none start (ents p (filter (fun j => nib_lt j n) all_nibbles))); [cbn [app]; f_equal; apply from_all|].
  - intros a (j & Hj & Pj)%ents_in. apply elem_of_list_filter in Hj as [Hj _]. by eapply key_lt_nib.
  - intros a (j & Hj & Pj)%ents_in. apply elem_of_list_filter in Hj as [Hj _]. by eapply key_lt_nib.
Qed.
Lemma new_loop start : forall rem p w st, key_nibbles start = p ++ rem -> chain st p -> rd_get_node rd (w, p) = Ok (node_at H M ver p) ->
  (U p m <> ∅ \/ p = []) -> exists it, iter_new_loop rd v start rem (w, p) st.*1 = Ok it /\ it_rest it (from start (entries (U p m)) ++ egts st).
Proof.
  induction rem as [|n rem IH]; intros p w st Ek C Rd Ne.
  all: assert (Pp : p `prefix_of` key_nibbles start) by (rewrite Ek; by eexists).
  all: cbn [iter_new_loop]; rewrite Rd, bind_Ok.
  all: destruct (decide (U p m = ∅)) as [Z|Z].
  1,3: destruct Ne as [Ne|Ne]; [done|]; subst p; rewrite (node_at_null H M ver []) by (rewrite U_fm, Z; apply fmap_empty);
       rewrite Z, entries_empty; destruct st as [|[x [p0 n0]] st]; [|cbn in C; destruct C as (C & _); destruct p0; done];
       eexists; split; [reflexivity|]; by apply ir_done.
  all: destruct (node_cases p Z) as [(k & y & E & En)|(Hm & s & En)]; rewrite En, ?bind_Ok.
  2:{ exfalso. rewrite app_nil_r in Ek. pose proof (U_many_len _ _ Hm). pose proof (key_nibbles_length start) as L. rewrite Ek in L. lia. }
  1,2: cbn [ln_key]; rewrite E, entries_single; destruct (key_ltb k start) eqn:Lk.
  1,3: rewrite from_none by (intros a ->%elem_of_list_singleton; by apply key_ltb_lt); destruct (cleanup_ok _ _ C) as (st' & q' & E1 & E2 & E3);
       rewrite E1, bind_Ok; eexists; split; [reflexivity|]; cbn [app]; rewrite <- E3; destruct st' as [|f st'];
       [by apply ir_done | by eapply (ir_stack _ f st')].
  1,2: assert (from start [(k, y)] = [(k, y)]) as -> by (unfold from; rewrite filter_cons_True by done; done);
       eexists; split; [reflexivity|]; destruct st as [|[x [p0 n0]] st];
       [cbn in C; subst p; rewrite U_nil in E; cbn [egts flat_map app]; by apply (ir_single _ k y)|];
       pose proof C as (-> & _); assert (Er : [(k, y)] ++ egts ((x, (p0, n0)) :: st) = rest ((x, (p0, n0)) :: st)) by
         (cbn [rest egts flat_map fst snd]; unfold ege; by rewrite E, entries_single); rewrite Er; by eapply ir_stack.
  assert (Lp : length p < 64) by by eapply U_many_len.
  assert (Pn : (p ++ [n]) `prefix_of` key_nibbles start) by (rewrite Ek; exists rem; by rewrite <- app_assoc).
  assert (2 <= size m) as Hm0 by (rewrite <- (U_nil m); eapply (U_many_up [] p); exact Hm).
  unfold in_child. cbn [in_children]. rewrite children_of_lookup. rewrite (from_split p n start Lp Pn).
  destruct (child_of H M ver p n) as [c|] eqn:Ec.
  - destruct (child_of_inv _ _ _ _ _ _ Ec) as (Hn & _ & Ev & _). apply U_fm_ne in Hn.
    destruct (visit_at p n n s (w, p) Hm eq_refl (or_introl eq_refl) Hn) as (x & Ex & Fr).
    { intros i [<-|Li] Li2; unfold nib_lt in *; lia. }
    rewrite Ex, bind_Ok. unfold gen_child. cbn [snd]. rewrite Ev.
    destruct (IH (p ++ [n]) (ver (p ++ [n])) ((x, (p, n)) :: st)) as (it & E1 & E2); [by rewrite <- app_assoc|by split_and!|by apply node_child|by left|].
    exists it. split; [exact E1|]. rewrite <- app_assoc. exact E2.
  - apply child_of_none in Ec. assert (Zn : U (p ++ [n]) m = ∅) by (destruct (decide (U (p ++ [n]) m = ∅)) as [|W]; [done|]; apply U_fm_ne in W; done).
    rewrite Zn, entries_empty. cbn [from filter list_filter app]. destruct (bitmaps_canon p s) as (bm & Eb & B). rewrite Eb, bind_Ok.
    assert (Hmax : exists j, U (p ++ [j]) m <> ∅ /\ forall i, nib_lt j i -> U (p ++ [i]) m = ∅).
    { pose proof (entries_U p m Lp) as EU. assert (Nn : ents p all_nibbles <> []) by (unfold ents; rewrite <- EU, entries_nil; apply size_ne; lia).
      destruct (ents_first p _ Nn) as (j0 & _ & _ & _ & _ & Hj0 & _). destruct (max_present p j0 Hj0) as (j & Hj & F & _). eauto. }
    destruct Hmax as (j & Hj & F).
    assert (Lz : leading_zeros bm.1 = (15 - nib_to_N j)%N).
    { apply lz_spec; [rewrite B; by apply bool_decide_eq_true|]. intros i Hi. rewrite B. apply bool_decide_eq_false. intros W. by apply W, F. }
    assert (Nz : (bm.1 =? 0)%N = false). { apply N.eqb_neq. intros W. pose proof (B j) as Bj. rewrite W, N.bits_0 in Bj. symmetry in Bj. by apply bool_decide_eq_false in Bj. }
    rewrite Nz. cbn [negb assert_]. rewrite bind_Ok.
    rewrite Lz. pose proof (nib_to_N_lt j). replace (15 - (15 - nib_to_N j))%N with (nib_to_N j) by lia.
    destruct (N.ltb_spec (nib_to_N n) (nib_to_N j)) as [Lnj|Lnj].
    + assert (Ng : egt p n <> []) by (intros W; rewrite egt_nil in W; by apply Hj, W).
      destruct (egt_next p n Ng) as (j' & L1 & Hj' & E2 & F').
      destruct (visit_at p n j' s (w, p) Hm eq_refl (or_intror L1) Hj') as (x & Ex & Fr).
      { intros i [<-|Li] Li2; [done|by apply F']. }
      rewrite Ex, bind_Ok. eexists. split; [reflexivity|]. rewrite E2. by eapply (ir_stack _ (x, (p, j')) st (p ++ [j'])).
    + assert (egt p n = []) as ->.
      { apply egt_nil. intros i Hi. apply F. assert (n <> j) by (intros ->; done). assert (nib_to_N n <> nib_to_N j) by (intros W; by apply nib_to_N_inj in W). unfold nib_lt in *. lia. }
      destruct (cleanup_ok _ _ C) as (st' & q' & E1 & E2 & E3). rewrite E1, bind_Ok. eexists. split; [reflexivity|]. cbn [app]. rewrite <- E3. by eapply rest_iter.
Qed.
Lemma iter_new_ok start : exists it, iter_new rd v start = Ok it /\ it_rest it (from start (entries m)).
Proof.
  destruct (new_loop start (key_nibbles start) [] v []) as (it & E & R); [done|done|apply root_node|by right|].
  exists it. split; [exact E|]. rewrite U_nil in R. cbn [egts flat_map] in R. by rewrite app_nil_r in R.
Qed.

(** *** new_by_index *)
Lemma skip_ok p : forall l sk t, sk <= t -> t < sk + length (ents p l) ->
  exists n c sk' l1 l2, l = l1 ++ n :: l2 /\
    skip_leaves (omap (fun n => c ← children_of H M ver p !! n; Some (n, c)) l) sk t = Ok (n, c, sk') /\ child_of H M ver p n = Some c /\
    sk' <= t /\ t < sk' + size (U (p ++ [n]) m) /\ drop (t - sk) (ents p l) = drop (t - sk') (entries (U (p ++ [n]) m)) ++ ents p l2.
Proof.
  induction l as [|a l IH]; intros sk t L1 L2; [cbn in L2; lia|].
  cbn [omap list_omap]. rewrite children_of_lookup. destruct (child_of H M ver p a) as [c|] eqn:Ec; cbn [mbind option_bind].
  - destruct (child_of_inv _ _ _ _ _ _ Ec) as (Hn & _ & _ & El & _). rewrite U_fm_size in El. cbn [skip_leaves]. rewrite El.
    cbn [ents flat_map] in L2. rewrite app_length, entries_length in L2. fold (ents p l) in L2.
    destruct (Nat.leb_spec (sk + size (U (p ++ [a]) m)) t) as [L|L].
    + destruct (IH (sk + size (U (p ++ [a]) m)) t) as (n & c' & sk' & l1 & l2 & -> & E1 & E2 & L3 & L4 & E3); [lia|lia|].
      exists n, c', sk', (a :: l1), l2. split_and!; [done|exact E1|done|done|done|]. rewrite <- E3. cbn [ents flat_map]. fold (ents p (l1 ++ n :: l2)).
      rewrite drop_app_ge by (rewrite entries_length; lia). rewrite entries_length. f_equal. lia.
    + exists a, c, sk, [], l. split_and!; [done|done|done|done|done|]. cbn [ents flat_map]. fold (ents p l). rewrite drop_app_le by (rewrite entries_length; lia). done.
  - apply child_of_none in Ec. assert (Zn : U (p ++ [a]) m = ∅) by (destruct (decide (U (p ++ [a]) m = ∅)) as [|W]; [done|]; apply U_fm_ne in W; done).
    assert (Ee : ents p (a :: l) = ents p l) by (cbn [ents flat_map]; by rewrite Zn, entries_empty). rewrite Ee in *.
    destruct (IH sk t) as (n & c' & sk' & l1 & l2 & -> & R); [done|done|]. exists n, c', sk', (a :: l1), l2. split; [done|exact R].
Qed.
Lemma index_loop t : forall fuel sk p w st, 65 <= fuel + length p -> chain st p -> U p m <> ∅ -> sk <= t -> t < sk + size (U p m) ->
  exists it, iter_index_loop rd fuel v t sk (w, p) (node_at H M ver p) st.*1 = Ok it /\ it_rest it (drop (t - sk) (entries (U p m)) ++ egts st).
Proof.
  induction fuel as [|f IH]; intros sk p w st Lf C Ne L1 L2; pose proof (U_len _ _ Ne) as L64; [lia|].
  cbn [iter_index_loop]. destruct (node_cases p Ne) as [(k & y & E & En)|(Hm & s & En)]; rewrite En.
  - rewrite E, map_size_singleton in L2. assert (t = sk) as -> by lia. rewrite Nat.eqb_refl. cbn [ensure_]. rewrite bind_Ok. eexists. split; [reflexivity|].
    rewrite E, entries_single, Nat.sub_diag, drop_0. destruct st as [|[x [p0 n0]] st].
    + cbn in C. subst p. rewrite U_nil in E. cbn [egts flat_map app]. by apply (ir_single _ k y).
    + pose proof C as (-> & _). assert (Er : [(k, y)] ++ egts ((x, (p0, n0)) :: st) = rest ((x, (p0, n0)) :: st)) by (cbn [rest egts flat_map fst snd]; unfold ege; by rewrite E, entries_single).
      rewrite Er. by eapply ir_stack.
  - assert (Lp : length p < 64) by by eapply U_many_len. cbn [in_children]. unfold children_iter.
    pose proof (entries_U p m Lp) as EU. fold (ents p all_nibbles) in EU.
    destruct (skip_ok p all_nibbles sk t L1) as (n & c & sk' & l1 & l2 & El & E1 & Ec & L3 & L4 & E3); [rewrite <- EU, entries_length; done|].
    rewrite E1, bind_Ok. destruct (child_of_inv _ _ _ _ _ _ Ec) as (Hn & _ & Ev & _). apply U_fm_ne in Hn.
    destruct (visit_at p n n s (w, p) Hm eq_refl (or_introl eq_refl) Hn) as (x & Ex & Fr).
    { intros i [<-|Li] Li2; unfold nib_lt in *; lia. }
    rewrite Ex, bind_Ok. unfold gen_child. cbn [snd]. rewrite Ev, (node_child p n Hm Hn), bind_Ok.
    destruct (IH sk' (p ++ [n]) (ver (p ++ [n])) ((x, (p, n)) :: st)) as (it & E4 & E5); [rewrite app_length; cbn; lia|by split_and!|done|done|done|].
    exists it. split; [exact E4|]. rewrite EU, E3, <- app_assoc. 
    assert (l2 = gts n) as ->; [|exact E5]. pose proof all_nibbles_sorted as S. rewrite El in S. destruct (sorted_split _ _ _ S) as [Q _]. rewrite <- El in Q. done.
Qed.
Lemma iter_new_by_index_ok t : exists it, iter_new_by_index rd v t = Ok it /\ it_rest it (drop t (entries m)).
Proof.
  unfold iter_new_by_index. rewrite root_node, bind_Ok, node_leaf_count_canon, U_fm_size, U_nil. destruct (Nat.leb_spec (size m) t) as [L|L].
  - eexists. split; [reflexivity|]. rewrite drop_ge by by rewrite entries_length. by apply ir_done.
  - destruct (index_loop t 65 0 [] v []) as (it & E & R); [cbn; lia|done|rewrite U_nil; apply size_ne; lia|lia|by rewrite U_nil|].
    exists it. split; [exact E|]. rewrite U_nil, Nat.sub_0_r in R. cbn [egts flat_map] in R. by rewrite app_nil_r in R.
Qed.
End it.
