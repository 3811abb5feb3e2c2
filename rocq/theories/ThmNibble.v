(** C37: packed nibble paths behave as nibble sequences. *)
From Verif Require Import Base Spec SpecOrder KeyFacts NibblePath NibbleFacts ThmNode.
From Coq Require Import Lia.
Local Open Scope nat_scope.

(** *** C37: every sequence of pushes and pops.
    [NibbleFacts.represents p l]: the packed path [p] has [length l] nibbles and its bytes are those
    of [l], two per byte, with a zero nibble of padding when the number is odd. *)
Inductive path_op : Type := Push (n : nibble) | Pop.
(** the reference: a list of nibbles of length at most 64; what a pop returns is part of the result *)
Definition list_op (o : path_op) (l : list nibble) : option (option nibble * list nibble) :=
  match o with
  | Push n => if length l <? 64 then Some (None, l ++ [n]) else None
  | Pop => Some (last l, take (length l - 1) l)
  end.
Fixpoint list_ops (os : list path_op) (l : list nibble) : option (list (option nibble) * list nibble) :=
  match os with
  | [] => Some ([], l)
  | o :: os' => match list_op o l with
                | Some (r, l') => match list_ops os' l' with Some (rs, l'') => Some (r :: rs, l'') | None => None end
                | None => None
                end
  end.
(** the code *)
Definition code_op (o : path_op) (p : npath) : outcome (option nibble * npath) :=
  match o with
  | Push n => p' ← np_push p n; Ok (None, p')
  | Pop => np_pop p
  end.
Fixpoint code_ops (os : list path_op) (p : npath) : outcome (list (option nibble) * npath) :=
  match os with
  | [] => Ok ([], p)
  | o :: os' => x ← code_op o p; y ← code_ops os' x.2; Ok (x.1 :: y.1, y.2)
  end.
Lemma code_op_ok o p l : represents p l ->
  match list_op o l with
  | Some (r, l') => exists p', code_op o p = Ok (r, p') /\ represents p' l'
  | None => code_op o p = Panic
  end.
Proof.
  intros R. destruct o as [n|]; cbn [list_op code_op].
  - destruct (length l <? 64) eqn:E.
    + apply Nat.ltb_lt in E. destruct (np_push_ok p l n R E) as (p' & -> & R'). by exists p'.
    + apply Nat.ltb_ge in E. by rewrite (np_push_full p l n R E).
  - apply np_pop_ok, R.
Qed.
Lemma code_ops_ok os : forall p l, represents p l ->
  match list_ops os l with
  | Some (rs, l') => exists p', code_ops os p = Ok (rs, p') /\ represents p' l'
  | None => code_ops os p = Panic
  end.
Proof.
  induction os as [|o os IH]; intros p l R; cbn [list_ops code_ops]; [by exists p|].
  pose proof (code_op_ok o p l R) as H. destruct (list_op o l) as [[r l1]|]; [|by rewrite H].
  destruct H as (p1 & -> & R1). cbn [mbind outcome_bind fst snd]. specialize (IH p1 l1 R1). destruct (list_ops os l1) as [[rs l2]|]; [|by rewrite IH].
  destruct IH as (p2 & -> & R2). by exists p2.
Qed.
Lemma rep_empty : represents (NP 0 []) [].
Proof. done. Qed.
(** Starting from the empty path, every sequence of pushes and pops returns what it returns on a list and leaves the path
    of that list; it panics exactly when the list version would grow above 64 nibbles. *)
Theorem C37_push_pop (os : list path_op) : exists p0, np_new [] = Ok p0 /\ represents p0 [] /\
  match list_ops os [] with
  | Some (rs, l) => exists p, code_ops os p0 = Ok (rs, p) /\ represents p l
  | None => code_ops os p0 = Panic
  end.
Proof. exists (NP 0 []). split; [done|]. split; [done|]. apply code_ops_ok, rep_empty. Qed.
(** A sequence and its packed path determine each other: equal paths are equal sequences. *)
Theorem C37_unique p q l m : represents p l -> represents q m -> (p = q <-> l = m).
Proof. intros P Q. split; [intros <-; by eapply rep_inj_l|intros <-; by eapply rep_inj_p]. Qed.
(** Every sequence of at most 64 nibbles has a packed path, the one made by collecting it. *)
Lemma push_all_ok l : forall p l0, represents p l0 -> length l0 + length l <= 64 -> exists p', np_push_all p l = Ok p' /\ represents p' (l0 ++ l).
Proof.
  induction l as [|n l IH]; intros p l0 R L; cbn [np_push_all]; [exists p; by rewrite app_nil_r|]. cbn [length] in L.
  destruct (np_push_ok p l0 n R) as (p1 & -> & R1); [lia|]. cbn [mbind outcome_bind].
  destruct (IH p1 (l0 ++ [n]) R1) as (p2 & -> & R2); [rewrite app_length; cbn [length]; lia|]. exists p2. split; [done|]. by rewrite <- app_assoc in R2.
Qed.
Theorem C37_collect l : length l <= 64 -> exists p, np_collect l = Ok p /\ represents p l.
Proof. intros L. apply (push_all_ok l (NP 0 []) [] rep_empty). done. Qed.
(** NibblePath::new and new_odd. *)
Theorem C37_new bs : length bs <= 32 -> exists p, np_new bs = Ok p /\ represents p (bytes_nibbles bs).
Proof. intros L. unfold np_new. change (ROOT_NIBBLE_HEIGHT / 2) with 32. rewrite (proj2 (Nat.leb_le _ _) L). eexists; split; [done|]. apply rep_even. Qed.
Theorem C37_new_odd bs h : length bs <= 31 -> exists p, np_new_odd (bs ++ [join h zero_nibble]) = Ok p /\ represents p (bytes_nibbles bs ++ [h]).
Proof.
  intros L. unfold np_new_odd. change (ROOT_NIBBLE_HEIGHT / 2) with 32. rewrite app_length. cbn [length]. rewrite (proj2 (Nat.leb_le _ _)) by lia. rewrite last_snoc.
  cbn [assert_ unwrap mbind outcome_bind]. replace (u8_and (join h zero_nibble) 15 =? 0)%N with true by (destruct h as [[] [] [] []]; reflexivity).
  eexists; split; [done|]. replace ((length bs + 1) * 2 - 1) with (length bs * 2 + 1) by lia. apply rep_odd.
Qed.
(** ... and these are all they accept: longer sequences panic, and so does an odd one whose unused half byte is not zero (which would be a second
    representation of the same nibbles). *)
Theorem C37_new_panics bs : (32 < length bs -> np_new bs = Panic /\ np_new_odd bs = Panic) /\ np_new_odd [] = Panic.
Proof. split; [|done]. intros L. unfold np_new, np_new_odd. change (ROOT_NIBBLE_HEIGHT / 2) with 32. rewrite (proj2 (Nat.leb_gt _ _) L). done. Qed.
Theorem C37_new_odd_panics bs h l : l <> zero_nibble -> np_new_odd (bs ++ [join h l]) = Panic.
Proof.
  intros Nl. unfold np_new_odd. destruct (length (bs ++ [join h l]) <=? _); [|done]. rewrite last_snoc. cbn [assert_ unwrap mbind outcome_bind].
  replace (u8_and (join h l) 15 =? 0)%N with false; [done|]. destruct h as [[] [] [] []], l as [[] [] [] []]; try reflexivity; by destruct Nl.
Qed.
(** The path of a key is the sequence of its 64 nibbles: the form used by the rest of the model. *)
Theorem C37_key k : exists p, np_new (b32 k) = Ok p /\ represents p (key_nibbles k).
Proof. apply C37_new. by rewrite b32_length. Qed.
(** Reading. *)
Theorem C37_read p l : represents p l ->
  np_num p = length l /\ np_is_empty p = bool_decide (l = []) /\ np_last p = Ok (last l) /\
  (forall i, np_get_nibble p i = unwrap (l !! i)) /\
  (forall i, np_get_bit p i = unwrap (flat_map nib_bits l !! i)).
Proof.
  intros R. split; [apply R|]. split; [unfold np_is_empty; rewrite (proj1 R); by destruct l|]. split; [by apply np_last_ok|].
  split; intros i; [by apply np_get_nibble_ok|by apply np_get_bit_ok].
Qed.

(** *** Iterators: [iterates it v r]: the iterator has yielded [v] and will yield [r]. *)
Definition iterates (it : nib_iter) (v r : list nibble) : Prop :=
  exists pre post, represents (ni_path it) (pre ++ v ++ r ++ post) /\ ni_start it = length pre /\
    ni_pos it = length pre + length v /\ ni_end it = length pre + length v + length r.
Definition bit_iterates (it : bit_iter) (r : list bool) : Prop :=
  exists l pre post, represents (bi_path it) l /\ flat_map nib_bits l = pre ++ r ++ post /\
    bi_pos it = length pre /\ bi_end it = length pre + length r.
Theorem C37_nibbles p l : represents p l -> iterates (np_nibbles p) [] l.
Proof. intros R. exists [], []. cbn [np_nibbles ni_new ni_path ni_start ni_pos ni_end app length]. rewrite app_nil_r, (proj1 R). repeat split; try done; apply R. Qed.
Theorem C37_bits p l : represents p l -> bit_iterates (np_bits p) (flat_map nib_bits l).
Proof. intros R. exists l, [], []. cbn [np_bits bi_path bi_pos bi_end app length]. rewrite app_nil_r, bits_len, (proj1 R). repeat split; try done; apply R. Qed.
Theorem C37_next it v r : iterates it v r -> ni_peek it = Ok (head r) /\
  exists it', ni_next it = Ok (head r, it') /\ match r with [] => it' = it | n :: r' => iterates it' (v ++ [n]) r' end.
Proof.
  intros (pre & post & R & E1 & E2 & E3). unfold ni_peek, ni_next. rewrite E2, E3. destruct r as [|n r].
  - cbn [length]. rewrite Nat.add_0_r, Nat.ltb_irrefl. split; [done|]. by exists it.
  - cbn [length head]. rewrite (proj2 (Nat.ltb_lt _ _)) by lia. rewrite (np_get_nibble_ok _ _ _ R).
    rewrite lookup_app_r by lia. rewrite Nat.add_comm, Nat.add_sub. rewrite lookup_app_r, Nat.sub_diag by lia. cbn [lookup list_lookup app unwrap mbind outcome_bind].
    split; [done|]. eexists. split; [done|]. exists pre, post. cbn [ni_path ni_start ni_pos ni_end]. rewrite <- !app_assoc, app_length. cbn [length app]. repeat split; try done; try lia; apply R.
Qed.
Theorem C37_iter_parts it v r : iterates it v r ->
  iterates (ni_visited it) [] v /\ iterates (ni_remaining it) [] r /\ bit_iterates (ni_bits it) (flat_map nib_bits r) /\
  ni_num it = Ok (length v + length r) /\ ni_is_finished it = Ok (bool_decide (r = [])).
Proof.
  intros I. pose proof I as (pre & post & R & E1 & E2 & E3). split; [|split; [|split; [|split]]].
  - exists pre, (r ++ post). cbn [ni_visited ni_new ni_path ni_start ni_pos ni_end length app]. rewrite E1, E2. repeat split; try done; try lia; apply R.
  - exists (pre ++ v), post. cbn [ni_remaining ni_new ni_path ni_start ni_pos ni_end length app]. rewrite E2, E3, <- !app_assoc, app_length. repeat split; try done; try lia; apply R.
  - exists (pre ++ v ++ r ++ post), (flat_map nib_bits (pre ++ v)), (flat_map nib_bits post). cbn [ni_bits bi_path bi_pos bi_end].
    rewrite !bits_len, app_length, E2, E3, !flat_map_app, <- !app_assoc. repeat split; try done; try lia; apply R.
  - unfold ni_num. rewrite E1, E3. rewrite (proj2 (Nat.leb_le _ _)) by lia. cbn [assert_ mbind outcome_bind]. f_equal. lia.
  - unfold ni_is_finished. rewrite (proj1 (C37_next it v r I)). by destruct r.
Qed.
Lemma drain_loop r : forall it v n, iterates it v r -> length r < n -> ni_drain_loop n it = Ok r.
Proof.
  induction r as [|a r IH]; intros it v n I L; (destruct n as [|n]; [cbn [length] in L; lia|]); cbn [ni_drain_loop].
  - destruct (C37_next it v [] I) as (_ & it' & -> & _). done.
  - destruct (C37_next it v _ I) as (_ & it' & -> & I'). cbn [mbind outcome_bind head fst snd]. rewrite (IH it' _ n I'); [done|]. cbn [length] in L. lia.
Qed.
(** Running an iterator to the end yields exactly its remaining nibbles. *)
Theorem C37_drain it v r : iterates it v r -> ni_drain it = Ok r.
Proof. intros I. unfold ni_drain. eapply drain_loop; [exact I|]. destruct I as (pre & post & _ & _ & -> & ->). lia. Qed.
(** get_nibble_path gives back the range the iterator covers, however far it has advanced. *)
Theorem C37_get_nibble_path it v r : iterates it v r -> length v + length r <= 64 -> exists p, ni_get_nibble_path it = Ok p /\ represents p (v ++ r).
Proof.
  intros I L. destruct (C37_iter_parts it v r I) as (I1 & I2 & _). unfold ni_get_nibble_path.
  rewrite (C37_drain _ _ _ I1). cbn [mbind outcome_bind]. rewrite (C37_drain _ _ _ I2). cbn [mbind outcome_bind]. apply C37_collect. by rewrite app_length.
Qed.
(** Bits, from both ends in any order. *)
Theorem C37_bit_next it r : bit_iterates it r -> bi_peek it = Ok (head r) /\
  (exists it', bi_next it = Ok (head r, it') /\ match r with [] => it' = it | _ :: r' => bit_iterates it' r' end) /\
  (exists it', bi_next_back it = Ok (last r, it') /\ (r = [] -> it' = it) /\ bit_iterates it' (take (length r - 1) r)).
Proof.
  intros I. pose proof I as (l & pre & post & R & El & E2 & E3). unfold bi_peek, bi_next, bi_next_back. rewrite E2, E3. destruct r as [|b r].
  - cbn [length]. rewrite Nat.add_0_r, Nat.ltb_irrefl. split; [done|]. split; exists it; by rewrite ?take_nil.
  - rewrite (proj2 (Nat.ltb_lt _ _)) by (cbn [length]; lia). rewrite !(np_get_bit_ok _ _ _ R), El. cbn [head].
    assert (Hd : (pre ++ (b :: r) ++ post) !! length pre = Some b) by (rewrite lookup_app_r, Nat.sub_diag by lia; done).
    rewrite Hd. cbn [unwrap mbind outcome_bind]. split; [done|]. split.
    + eexists; split; [done|]. exists l, (pre ++ [b]), post. cbn [bi_path bi_pos bi_end]. rewrite <- app_assoc, app_length. cbn [length app]. repeat split; try done; try lia; apply R.
    + destruct (destruct_list_last (b :: r)) as [?|(r0 & c & E)]; [done|]. rewrite E, last_snoc, app_length. cbn [length].
      rewrite <- app_assoc. replace ((pre ++ r0 ++ [c] ++ post) !! (length pre + (length r0 + 1) - 1)) with (Some c).
      2: { rewrite lookup_app_r by lia. rewrite lookup_app_r by lia. replace (length pre + (length r0 + 1) - 1 - length pre - length r0) with 0 by lia. done. }
      cbn [unwrap mbind outcome_bind]. eexists; split; [done|]. split; [intros Z; by destruct r0|]. rewrite Nat.add_sub, take_app.
      exists l, pre, ([c] ++ post). cbn [bi_path bi_pos bi_end]. rewrite El, E, <- !app_assoc. repeat split; try done; try lia; apply R.
Qed.
Lemma bit_drain_loop r : forall it n, bit_iterates it r -> length r < n -> bi_drain_loop bi_next n it = Ok r.
Proof.
  induction r as [|a r IH]; intros it n I L; (destruct n as [|n]; [cbn [length] in L; lia|]); cbn [bi_drain_loop].
  - destruct (C37_bit_next it [] I) as (_ & (it' & -> & _) & _). done.
  - destruct (C37_bit_next it _ I) as (_ & (it' & -> & I') & _). cbn [mbind outcome_bind head fst snd]. rewrite (IH it' n I'); [done|]. cbn [length] in L. lia.
Qed.
Lemma bit_drain_back_loop r : forall it n, bit_iterates it r -> length r < n -> bi_drain_loop bi_next_back n it = Ok (reverse r).
Proof.
  induction r as [|a r IH] using rev_ind; intros it n I L; (destruct n as [|n]; [lia|]); cbn [bi_drain_loop].
  - destruct (C37_bit_next it [] I) as (_ & _ & (it' & -> & _)). done.
  - destruct (C37_bit_next it _ I) as (_ & _ & (it' & -> & _ & I')). rewrite last_snoc. cbn [mbind outcome_bind fst snd]. rewrite app_length in *. cbn [length] in *.
    rewrite Nat.add_sub, take_app in I'. rewrite (IH it' n I') by lia. cbn [mbind outcome_bind]. by rewrite reverse_snoc.
Qed.
Theorem C37_bit_drain it r : bit_iterates it r -> bi_drain it = Ok r /\ bi_drain_back it = Ok (reverse r).
Proof.
  intros I. unfold bi_drain, bi_drain_back. assert (L : length r < bi_end it - bi_pos it + 1) by (destruct I as (l & pre & post & _ & _ & -> & ->); lia).
  split; [by apply bit_drain_loop|by apply bit_drain_back_loop].
Qed.
(** skip_common_prefix returns the length of the common prefix of what remains, and advances both iterators by it. *)
Lemma skip_loop_ok r : forall x y v v' r' n c, iterates x v r -> iterates y v' r' -> length r < n ->
  exists x' y', skip_loop n x y c = Ok (c + lcp r r', x', y') /\
    iterates x' (v ++ take (lcp r r') r) (drop (lcp r r') r) /\ iterates y' (v' ++ take (lcp r r') r') (drop (lcp r r') r').
Proof.
  induction r as [|a r IH]; intros x y v v' r' n c I I' L; (destruct n as [|n]; [cbn [length] in L; lia|]); cbn [skip_loop].
  - rewrite (proj1 (C37_next _ _ _ I)), (proj1 (C37_next _ _ _ I')). cbn [mbind outcome_bind head lcp take drop]. rewrite Nat.add_0_r, !app_nil_r. exists x, y. destruct (head r'); done.
  - destruct (C37_next _ _ _ I) as (-> & x1 & -> & X1). destruct (C37_next _ _ _ I') as (-> & y1 & -> & Y1). cbn [mbind outcome_bind head fst snd].
    destruct r' as [|b r']; cbn [head lcp]; [rewrite Nat.add_0_r; cbn [take drop]; rewrite !app_nil_r; by exists x, y|]. case_bool_decide as E.
    + subst b. rewrite decide_True by done. destruct (IH x1 y1 (v ++ [a]) (v' ++ [a]) r' n (c + 1) X1 Y1) as (x' & y' & -> & X' & Y'); [cbn [length] in L; lia|].
      exists x', y'. rewrite !firstn_cons, !skipn_cons. rewrite <- !app_assoc in X', Y'. split; [do 3 f_equal; lia|]. done.
    + rewrite decide_False by done. rewrite Nat.add_0_r. cbn [take drop]. rewrite !app_nil_r. by exists x, y.
Qed.
Theorem C37_skip_common_prefix x y v v' r r' : iterates x v r -> iterates y v' r' ->
  exists x' y', skip_common_prefix x y = Ok (lcp r r', x', y') /\
    iterates x' (v ++ take (lcp r r') r) (drop (lcp r r') r) /\ iterates y' (v' ++ take (lcp r r') r') (drop (lcp r r') r').
Proof.
  intros I I'. unfold skip_common_prefix. apply (skip_loop_ok r x y v v' r' _ 0 I I'). destruct I as (pre & post & _ & _ & -> & ->). lia.
Qed.

(** *** Order: first by the number of nibbles, then as nibble strings. *)
Fixpoint nibs_compare (l m : list nibble) : comparison :=
  match l, m with
  | [], [] => Eq
  | [], _ :: _ => Lt
  | _ :: _, [] => Gt
  | a :: l', b :: m' => match N.compare (nib_to_N a) (nib_to_N b) with Eq => nibs_compare l' m' | c => c end
  end.
Lemma byte_N_split b : Byte.to_N b = (16 * nib_to_N (byte_hi b) + nib_to_N (byte_lo b))%N.
Proof. destruct b; reflexivity. Qed.
Lemma byte_compare a b : N.compare (Byte.to_N a) (Byte.to_N b) =
  match N.compare (nib_to_N (byte_hi a)) (nib_to_N (byte_hi b)) with Eq => N.compare (nib_to_N (byte_lo a)) (nib_to_N (byte_lo b)) | c => c end.
Proof.
  rewrite !byte_N_split. pose proof (nib_to_N_lt (byte_lo a)). pose proof (nib_to_N_lt (byte_lo b)).
  destruct (N.compare_spec (nib_to_N (byte_hi a)) (nib_to_N (byte_hi b))) as [E|E|E].
  - rewrite E. destruct (N.compare_spec (nib_to_N (byte_lo a)) (nib_to_N (byte_lo b))) as [F|F|F];
      [rewrite F; apply N.compare_refl|apply N.compare_lt_iff; lia|apply N.compare_gt_iff; lia].
  - apply N.compare_lt_iff. lia.
  - apply N.compare_gt_iff. lia.
Qed.
Lemma bytes_compare_nibs x : forall y, bytes_compare x y = nibs_compare (bytes_nibbles x) (bytes_nibbles y).
Proof.
  induction x as [|a x IH]; intros [|b y]; try done.
  change (bytes_nibbles (a :: x)) with (byte_hi a :: byte_lo a :: bytes_nibbles x). change (bytes_nibbles (b :: y)) with (byte_hi b :: byte_lo b :: bytes_nibbles y).
  cbn [bytes_compare nibs_compare]. rewrite byte_compare, IH. by destruct (N.compare (nib_to_N (byte_hi a)) (nib_to_N (byte_hi b))).
Qed.
Lemma nibs_compare_refl l : nibs_compare l l = Eq.
Proof. induction l as [|a l IH]; [done|]. cbn [nibs_compare]. by rewrite N.compare_refl. Qed.
Lemma nibs_compare_app l : forall m s, length l = length m -> nibs_compare (l ++ s) (m ++ s) = nibs_compare l m.
Proof.
  induction l as [|a l IH]; intros [|b m] s E; try done; [apply nibs_compare_refl|]. cbn [app nibs_compare]. rewrite IH; [done|]. by injection E.
Qed.
Theorem C37_order p q l m : represents p l -> represents q m ->
  np_compare p q = match Nat.compare (length l) (length m) with Eq => nibs_compare l m | c => c end.
Proof.
  intros P Q. unfold np_compare. rewrite (proj1 P), (proj1 Q). destruct (Nat.compare_spec (length l) (length m)) as [E|E|E]; [|done|done].
  rewrite bytes_compare_nibs, (proj2 P), (proj2 Q), E. by apply nibs_compare_app.
Qed.

(** *** The byte-level accessors of 32-byte keys *)
(** nibble(i) and get_bit(i) read the key's nibble and bit sequences; both panic past the end. *)
Theorem C37_key_nibble k i : b32_nibble k i = nib_to_N <$> unwrap (key_nibbles k !! i).
Proof.
  unfold b32_nibble, key_nibbles. rewrite bytes_nibbles_lookup. destruct (b32 k !! (i / 2)) as [b|]; [|done]. cbn [unwrap mbind outcome_bind fmap outcome_fmap]. f_equal.
  destruct (i mod 2 =? 0); destruct b; reflexivity.
Qed.
Lemma flat_bits_lookup (l : list byte) : forall i, flat_map byte_bits l !! i = match l !! (i / 8) with Some b => Some (bit_of b (i mod 8)) | None => None end.
Proof.
  induction l as [|a l IH]; intros i; [done|]. destruct (decide (i < 8)) as [L|L].
  - rewrite Nat.div_small, Nat.mod_small by done. cbn [lookup list_lookup flat_map]. rewrite lookup_app_l by (rewrite byte_bits_length; lia).
    rewrite <- (byte_bits_lookup a i L). rewrite byte_bits_nibbles. unfold byte_nibbles. cbn [flat_map]. by rewrite app_nil_r.
  - replace i with ((i - 8) + 1 * 8) by lia. rewrite Nat.div_add, Nat.mod_add by lia. rewrite Nat.add_1_r. cbn [lookup list_lookup flat_map]. change (list_lookup (A:=byte)) with (@lookup nat byte (list byte) _).
    rewrite lookup_app_r by (rewrite byte_bits_length; lia). rewrite byte_bits_length. replace (i - 8 + 1 * 8 - 8) with (i - 8) by lia. apply IH.
Qed.
Theorem C37_key_bit k i : hv_get_bit k i = unwrap (key_bits k !! i).
Proof. unfold hv_get_bit, key_bits. rewrite flat_bits_lookup. by destruct (b32 k !! (i / 8)). Qed.
(** iter_bits(): the bits of the key from both ends, in any order of the calls next and next_back ([true] is next) *)
Fixpoint hv_calls (it : hv_iter) (calls : list bool) : outcome (list (option bool)) :=
  match calls with
  | [] => Ok []
  | c :: cs => x ← (if c then hv_next it else hv_next_back it); ys ← hv_calls x.2 cs; Ok (x.1 :: ys)
  end.
Fixpoint ends_of (l : list bool) (calls : list bool) : list (option bool) :=
  match calls with
  | [] => []
  | true :: cs => head l :: ends_of (tail l) cs
  | false :: cs => last l :: ends_of (take (length l - 1) l) cs
  end.
Lemma hv_calls_ok k cs : forall pos len l, l = take len (drop pos (key_bits k)) -> length l = len -> hv_calls (HV k pos (pos + len)) cs = Ok (ends_of l cs).
Proof.
  induction cs as [|c cs IH]; intros pos len l El Ll; [done|]. cbn [hv_calls]. destruct len as [|len].
  - apply nil_length_inv in Ll. subst l. assert (E : hv_next (HV k pos (pos + 0)) = Ok (None, HV k pos (pos + 0)) /\ hv_next_back (HV k pos (pos + 0)) = Ok (None, HV k pos (pos + 0))).
    { unfold hv_next, hv_next_back. cbn [hv_pos hv_end]. rewrite (proj2 (Nat.ltb_ge _ _)) by lia. done. }
    destruct E as [E1 E2]. destruct c; cbn [ends_of]; rewrite ?E1, ?E2; cbn [mbind outcome_bind fst snd]; rewrite (IH pos 0 []) by done; done.
  - assert (L : forall i, i < S len -> key_bits k !! (pos + i) = l !! i) by (intros i Li; rewrite El, lookup_take by lia; by rewrite lookup_drop).
    destruct l as [|b l]; [done|]. cbn [length] in Ll. injection Ll as Ll. destruct c; cbn [ends_of head tail].
    + unfold hv_next. cbn [hv_pos hv_end hv_key]. rewrite (proj2 (Nat.ltb_lt _ _)) by lia. rewrite C37_key_bit. rewrite <- (Nat.add_0_r pos) at 1. rewrite (L 0) by lia. cbn [lookup list_lookup unwrap mbind outcome_bind fst snd].
      replace (pos + S len) with (pos + 1 + len) by lia. rewrite (IH (pos + 1) len l); [done| |done]. rewrite <- drop_drop. destruct (drop pos (key_bits k)) as [|b' d]; cbn [take] in El; [done|]. injection El as _ El. by cbn [drop].
    + unfold hv_next_back. cbn [hv_pos hv_end hv_key]. rewrite (proj2 (Nat.ltb_lt _ _)) by lia. rewrite C37_key_bit. replace (pos + S len - 1) with (pos + len) by lia. rewrite (L len) by lia.
      rewrite last_lookup. cbn [length]. rewrite Ll. cbn [Nat.pred]. destruct ((b :: l) !! len) as [x|] eqn:Ex; [|apply lookup_ge_None in Ex; cbn [length] in Ex; lia]. cbn [unwrap mbind outcome_bind fst snd].
      rewrite (IH pos len (take (S len - 1) (b :: l))); [done| |]. { rewrite El, take_take. f_equal. lia. } rewrite take_length. cbn [length]. lia.
Qed.
Theorem C37_key_iter k calls : hv_calls (hv_new k) calls = Ok (ends_of (key_bits k) calls) /\ hv_len (hv_new k) = length (key_bits k).
Proof.
  assert (L : length (key_bits k) = 256) by apply key_bits_length. split; [|by rewrite L]. apply (hv_calls_ok k calls 0 256); [|done]. rewrite drop_0, take_ge; [done|by rewrite L].
Qed.
Lemma set_bit_byte b j : j < 8 -> byte_bits (byte_of_N (N.lor (Byte.to_N b) (N.shiftl 1 (N.of_nat (7 - j))))) = <[j := true]> (byte_bits b).
Proof. intros L. do 8 (destruct j as [|j]; [destruct b; reflexivity|]). lia. Qed.
Lemma set_bit_list (l : list byte) : forall i b, l !! (i / 8) = Some b ->
  flat_map byte_bits (<[i / 8 := byte_of_N (N.lor (Byte.to_N b) (N.shiftl 1 (N.of_nat (7 - i mod 8))))]> l) = <[i := true]> (flat_map byte_bits l).
Proof.
  induction l as [|a l IH]; intros i b E; [done|]. destruct (decide (i < 8)) as [L|L].
  - rewrite Nat.div_small, Nat.mod_small in * by done. injection E as ->. cbn [insert list_insert flat_map]. rewrite insert_app_l by (rewrite byte_bits_length; lia). by rewrite set_bit_byte.
  - replace i with ((i - 8) + 1 * 8) in E |- * by lia. rewrite Nat.div_add, Nat.mod_add in * by lia. rewrite Nat.add_1_r in *. change (l !! ((i - 8) / 8) = Some b) in E.
    change (<[Datatypes.S ((i - 8) / 8) := ?y]> (a :: l)) with (a :: <[(i - 8) / 8 := y]> l). cbn [flat_map]. rewrite IH by done.
    rewrite insert_app_r_alt by (rewrite byte_bits_length; lia). rewrite byte_bits_length. replace (i - 8 + 1 * 8 - 8) with (i - 8) by lia. done.
Qed.
Lemma repeat_S {A} (x : A) n : repeat x (Datatypes.S n) = x :: repeat x n.
Proof. done. Qed.
Lemma fbi_loop_ok l : forall pre buf, length buf = 32 -> length pre + length l = 256 -> flat_map byte_bits buf = pre ++ repeat false (length l) ->
  exists buf', fbi_loop (length pre) l buf = Ok buf' /\ length buf' = 32 /\ flat_map byte_bits buf' = pre ++ l.
Proof.
  induction l as [|b l IH]; intros pre buf L Ln E; cbn [fbi_loop]; [exists buf; done|]. cbn [length] in *. rewrite repeat_S in E.
  assert (Lp : length (pre ++ [b]) = length pre + 1) by by rewrite app_length.
  destruct b.
  - destruct (lookup_lt_is_Some_2 buf (length pre / 8)) as [x Ex]; [apply Nat.div_lt_upper_bound; lia|]. rewrite Ex. cbn [unwrap mbind outcome_bind].
    destruct (IH (pre ++ [true]) (<[length pre / 8 := byte_of_N (N.lor (Byte.to_N x) (N.shiftl 1 (N.of_nat (7 - length pre mod 8))))]> buf)) as (buf' & E' & Lb & Eb).
    + by rewrite insert_length.
    + lia.
    + rewrite set_bit_list, E by done. rewrite insert_app_r_alt, Nat.sub_diag by lia. cbn [list_insert insert]. by rewrite <- app_assoc.
    + rewrite Lp in E'. exists buf'. rewrite <- app_assoc in Eb. done.
  - destruct (IH (pre ++ [false]) buf) as (buf' & E' & Lb & Eb); [done|lia|by rewrite <- app_assoc|]. rewrite Lp in E'. exists buf'. rewrite <- app_assoc in Eb. done.
Qed.
(** from_bit_iter inverts the bit sequence of a key; it returns None for any other length. *)
Theorem C37_from_bits (l : list bool) : length l = 256 -> exists k, from_bit_iter l = Ok (Some k) /\ key_bits k = l.
Proof.
  intros L. unfold from_bit_iter. rewrite L. change (256 =? 256) with true. cbv iota.
  destruct (fbi_loop_ok l [] (repeat x00 32)) as (buf & E & Lb & Eb); [done|done|by rewrite L|]. cbn [length] in E. rewrite E. cbn [mbind outcome_bind].
  unfold to_bytes32. destruct (bool_dec _ _) as [T|T]; [|exfalso; apply T; by rewrite Lb]. eexists; split; [done|]. exact Eb.
Qed.
Theorem C37_from_bits_other (l : list bool) : length l <> 256 -> from_bit_iter l = Ok None.
Proof. intros L. unfold from_bit_iter. by rewrite (proj2 (Nat.eqb_neq _ _) L). Qed.
Theorem C37_from_bits_key k : from_bit_iter (key_bits k) = Ok (Some k).
Proof. destruct (C37_from_bits (key_bits k) (key_bits_length k)) as (k' & -> & E). by apply key_bits_inj in E as ->. Qed.

(** A path of three nibbles 1, 2, a, as in the module's documentation: bytes 12 a0, and popping one leaves 12. *)
Example demo_path : exists p, np_collect [nib_of_N 1; nib_of_N 2; nib_of_N 10] = Ok p /\ np_bytes p = [x12; xa0] /\
  (exists p', np_pop p = Ok (Some (nib_of_N 10), p') /\ np_bytes p' = [x12]) /\ ni_drain (np_nibbles p) = Ok [nib_of_N 1; nib_of_N 2; nib_of_N 10].
Proof. eexists. split; [vm_compute; reflexivity|]. split; [done|]. split; [eexists; split; vm_compute; reflexivity|vm_compute; reflexivity]. Qed.
(** 64 pushes fill a path; the 65th panics. *)
Example demo_full : code_ops (repeat (Push (nib_of_N 7)) 65) (NP 0 []) = Panic /\
  exists r, code_ops (repeat (Push (nib_of_N 7)) 64) (NP 0 []) = Ok r /\ np_bytes r.2 = repeat x77 32.
Proof. split; [vm_compute; reflexivity|]. eexists. split; vm_compute; reflexivity. Qed.
(** Order is by length first: the path "2" comes before "12". *)
Example demo_order : exists p q, np_collect [nib_of_N 2] = Ok p /\ np_collect [nib_of_N 1; nib_of_N 2] = Ok q /\ np_compare p q = Lt.
Proof. do 2 eexists. repeat split; vm_compute; reflexivity. Qed.
