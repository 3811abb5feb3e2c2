(** Bitmap ranges, internal node hashing (C52 core). *)
From Verif Require Import Base Spec NodeType KeyFacts ProofFacts.
From Coq Require Import Lia.

(** ** Ranges of nibbles given by a bit prefix *)
Definition nibs (r : list bool) : list nibble :=
  filter (fun n => take (length r) (nib_bits n) = r) all_nibbles.
Definition pstart (r : list bool) : N :=
  nib_to_N (Nib (nth 0 r false) (nth 1 r false) (nth 2 r false) (nth 3 r false)).

Lemma all_nibbles_complete n : n ∈ all_nibbles.
Proof. apply elem_of_list_In. destruct n as [[] [] [] []]; simpl; tauto. Qed.
Lemma all_nibbles_nodup : NoDup all_nibbles.
Proof. repeat (apply NoDup_cons; split; [intros E; apply elem_of_list_In in E; simpl in E; intuition discriminate|]). apply NoDup_nil_2. Qed.
Lemma elem_of_nibs n r : n ∈ nibs r <-> take (length r) (nib_bits n) = r.
Proof. unfold nibs. rewrite elem_of_list_filter. split; [tauto|]. split; [done|apply all_nibbles_complete]. Qed.
Lemma nibs_nodup r : NoDup (nibs r).
Proof. apply NoDup_filter, all_nibbles_nodup. Qed.
Lemma nibs_nil : nibs [] = all_nibbles.
Proof. reflexivity. Qed.
Ltac enum_bits r :=
  destruct r as [|[] [|[] [|[] [|[] [|? ?]]]]].
Lemma nibs_halves r h : length r + S h = 4 ->
  take (2 ^ h) (nibs r) = nibs (r ++ [false]) /\ drop (2 ^ h) (nibs r) = nibs (r ++ [true]).
Proof.
  intros L. enum_bits r; simpl in L; try lia; (destruct h as [|[|[|[|h]]]]; try lia); split; reflexivity.
Qed.
Lemma nibs_app r h : length r + S h = 4 -> nibs r = nibs (r ++ [false]) ++ nibs (r ++ [true]).
Proof. intros L. destruct (nibs_halves r h L) as [E1 E2]. rewrite <- E1, <- E2. by rewrite take_drop. Qed.
Lemma nibs_4 n : nibs (nib_bits n) = [n].
Proof. destruct n as [[] [] [] []]; reflexivity. Qed.
Lemma nibs_4' r : length r = 4 -> exists n, r = nib_bits n.
Proof.
  intros L. enum_bits r; simpl in L; try lia;
    match goal with |- exists n, [?a;?b;?c;?d] = _ => exists (Nib a b c d) end; reflexivity.
Qed.
Lemma pstart_false r h : length r + S h = 4 -> pstart (r ++ [false]) = pstart r.
Proof. intros L. enum_bits r; simpl in L; try lia; reflexivity. Qed.
Lemma pstart_true r h : length r + S h = 4 -> pstart (r ++ [true]) = (pstart r + 2 ^ N.of_nat (S h) / 2)%N.
Proof. intros L. enum_bits r; simpl in L; try lia; (destruct h as [|[|[|[|h]]]]; try lia); reflexivity. Qed.
Lemma child_half_start_spec n h : h < 4 -> child_half_start n h = pstart (take (4 - h) (nib_bits n)).
Proof. intros L. destruct h as [|[|[|[|h]]]]; try lia; destruct n as [[] [] [] []]; reflexivity. Qed.
Lemma sibling_half_start_spec n h : h < 4 ->
  sibling_half_start n h = pstart (take (3 - h) (nib_bits n) ++ [negb (nth (3 - h) (nib_bits n) false)]).
Proof. intros L. destruct h as [|[|[|[|h]]]]; try lia; destruct n as [[] [] [] []]; reflexivity. Qed.

(** ** Sets of nibbles as 16-bit words *)
Definition set16 (x : N) : list nibble := filter (fun n => N.testbit x (nib_to_N n) = true) all_nibbles.
Definition small (x : N) : Prop := forall i, (16 <= i)%N -> N.testbit x i = false.
Lemma nib_to_of_N i : (i < 16)%N -> nib_to_N (nib_of_N i) = i.
Proof.
  intros Hi. assert (E : i ∈ map nib_to_N all_nibbles).
  { apply elem_of_list_In. change (In i [0;1;2;3;4;5;6;7;8;9;10;11;12;13;14;15]%N). simpl. lia. }
  apply elem_of_list_fmap in E as (n & -> & _). by rewrite nib_of_to_N.
Qed.
Lemma small_ext x y : small x -> small y -> (forall n, N.testbit x (nib_to_N n) = N.testbit y (nib_to_N n)) -> x = y.
Proof.
  intros Hx Hy E. apply N.bits_inj. intros i. destruct (N.lt_ge_cases i 16).
  - rewrite <- (nib_to_of_N i) by done. apply E.
  - rewrite Hx, Hy; done.
Qed.
Lemma elem_of_set16 n x : n ∈ set16 x <-> N.testbit x (nib_to_N n) = true.
Proof. unfold set16. rewrite elem_of_list_filter. split; [tauto|]. split; [done|apply all_nibbles_complete]. Qed.
Lemma set16_nil x : small x -> x = 0%N <-> set16 x = [].
Proof.
  intros Hs. split.
  - intros ->. reflexivity.
  - intros E. apply small_ext; [done|by intros i _; rewrite N.bits_0|]. intros n.
    rewrite N.bits_0. destruct (N.testbit x (nib_to_N n)) eqn:T; [|done].
    apply elem_of_set16 in T. rewrite E in T. by apply elem_of_nil in T.
Qed.
Lemma bit_positions_eq : bit_positions = map nib_to_N all_nibbles.
Proof. reflexivity. Qed.
Lemma count_ones_set16 x : count_ones x = length (set16 x).
Proof.
  unfold count_ones, set16. rewrite bit_positions_eq. generalize all_nibbles as l.
  induction l as [|n l IH]; [done|]. cbn [map]. rewrite !filter_cons.
  repeat case_decide; try done. simpl. by rewrite IH.
Qed.
Lemma trailing_zeros_set16 x : trailing_zeros x = match set16 x with n :: _ => nib_to_N n | [] => 16%N end.
Proof.
  unfold trailing_zeros, set16. rewrite bit_positions_eq. generalize all_nibbles as l.
  induction l as [|n l IH]; [done|]. cbn [map first_bit]. rewrite filter_cons.
  case_decide as E; [by rewrite E|]. destruct (N.testbit x (nib_to_N n)); done.
Qed.
Lemma nib_from_u8_nib n : nib_from_u8 (nib_to_N n) = Ok n.
Proof.
  unfold nib_from_u8. pose proof (nib_to_N_lt n). destruct (N.ltb_spec (nib_to_N n) 16); [|lia].
  by rewrite nib_of_to_N.
Qed.
Lemma single_bit_set16 x n : small x -> x = N.shiftl 1 (nib_to_N n) <-> set16 x = [n].
Proof.
  intros Hs. split.
  - intros ->. destruct n as [[] [] [] []]; reflexivity.
  - intros E. apply small_ext; [done| |].
    + intros i Hi. rewrite N.shiftl_1_l. apply N.pow2_bits_false. pose proof (nib_to_N_lt n). lia.
    + intros m. rewrite N.shiftl_1_l. apply eq_true_iff_eq. rewrite N.pow2_bits_eqb, N.eqb_eq, <- elem_of_set16, E.
      rewrite elem_of_list_singleton. split; [by intros ->|]. intros F. symmetry. by apply nib_to_N_inj.
Qed.

Lemma range_bitmaps_spec r h bm : length r + h = 4 -> exists rb, range_bitmaps (pstart r) h bm = Ok rb /\
  small rb.1 /\ small rb.2 /\
  (forall n, N.testbit rb.1 (nib_to_N n) = N.testbit bm.1 (nib_to_N n) && bool_decide (take (length r) (nib_bits n) = r)) /\
  (forall n, N.testbit rb.2 (nib_to_N n) = N.testbit bm.2 (nib_to_N n) && bool_decide (take (length r) (nib_bits n) = r)).
Proof.
  intros L. unfold range_bitmaps. set (width := (2 ^ N.of_nat h)%N).
  set (mask := N.land (N.shiftl (N.shiftl 1 width - 1) (pstart r)) 65535).
  assert (A : ((pstart r <? 16) && (pstart r mod width =? 0))%N = true /\
              ((width <=? 16) && (pstart r + width <=? 16))%N = true /\
              forall n, N.testbit mask (nib_to_N n) = bool_decide (take (length r) (nib_bits n) = r)).
  { unfold mask, width.
    enum_bits r; simpl in L; try lia; (destruct h as [|[|[|[|[|h]]]]]; try lia); (split; [reflexivity|]; split; [reflexivity|]);
      intros n; destruct n as [[] [] [] []]; vm_compute; reflexivity. }
  destruct A as (-> & -> & A). cbn [assert_ mbind outcome_bind].
  assert (Sm : small mask).
  { intros i Hi. unfold mask. rewrite N.land_spec. change 65535%N with (N.ones 16).
    rewrite N.ones_spec_high by done. apply andb_false_r. }
  eexists. split; [reflexivity|]. simpl.
  split; [intros i Hi; rewrite N.land_spec, (Sm i Hi); apply andb_false_r|].
  split; [intros i Hi; rewrite N.land_spec, (Sm i Hi); apply andb_false_r|].
  split; intros n; by rewrite N.land_spec, A.
Qed.

(** ** Bitmaps of children *)
Definition is_leaf_slot (o : option child) : bool := match o with Some c => c_is_leaf c | None => false end.
Definition bm_ok (bm : N * N) (ch : children) (r : list bool) : Prop :=
  forall n, n ∈ nibs r ->
    N.testbit bm.1 (nib_to_N n) = bool_decide (is_Some (ch !! n)) /\
    N.testbit bm.2 (nib_to_N n) = is_leaf_slot (ch !! n).
Definition pres (ch : children) (r : list bool) : list nibble := filter (fun n => is_Some (ch !! n)) (nibs r).

Lemma elem_of_pres ch r n : n ∈ pres ch r <-> n ∈ nibs r /\ is_Some (ch !! n).
Proof. unfold pres. rewrite elem_of_list_filter. tauto. Qed.

Lemma range_spec r h bm ch : length r + h = 4 -> bm_ok bm ch r -> exists rb, range_bitmaps (pstart r) h bm = Ok rb /\
  small rb.1 /\ small rb.2 /\ bm_ok rb ch r /\ set16 rb.1 = pres ch r /\
  (rb.2 = 0%N <-> forall n, n ∈ nibs r -> is_leaf_slot (ch !! n) = false).
Proof.
  intros L B. destruct (range_bitmaps_spec r h bm L) as (rb & E & S1 & S2 & T1 & T2).
  exists rb. split; [done|]. split; [done|]. split; [done|].
  assert (B' : bm_ok rb ch r).
  { intros n Hn. destruct (B n Hn) as [B1 B2]. apply elem_of_nibs in Hn.
    rewrite T1, T2, B1, B2. rewrite (bool_decide_true (take _ _ = r)) by done. by rewrite !andb_true_r. }
  split; [done|]. split.
  - unfold set16, pres, nibs. rewrite list_filter_filter. apply list_filter_iff. intros n.
    rewrite T1, andb_true_iff, bool_decide_eq_true. split.
    + intros [E1 E2]. pose proof E2 as Hn. apply elem_of_nibs in Hn. destruct (B n Hn) as [B1 _].
      rewrite B1, bool_decide_eq_true in E1. done.
    + intros [E1 E2]. pose proof E2 as Hn. apply elem_of_nibs in Hn. destruct (B n Hn) as [B1 _].
      rewrite B1, bool_decide_eq_true. done.
  - rewrite set16_nil by done. split.
    + intros E2 n Hn. destruct (B' n Hn) as [_ B2]. rewrite <- B2.
      destruct (N.testbit rb.2 (nib_to_N n)) eqn:T; [|done].
      apply elem_of_set16 in T. rewrite E2 in T. by apply elem_of_nil in T.
    + intros A. destruct (set16 rb.2) as [|n l] eqn:E2; [done|].
      assert (n ∈ set16 rb.2) as Hn by (rewrite E2; apply elem_of_list_here).
      apply elem_of_set16 in Hn. pose proof Hn as Hn2. rewrite T2, andb_true_iff, bool_decide_eq_true in Hn.
      destruct Hn as [_ Hn]. apply elem_of_nibs in Hn. destruct (B' n Hn) as [_ B2]. rewrite A in B2 by done. congruence.
Qed.
Lemma bm_ok_sub bm ch r b : length r < 4 -> bm_ok bm ch r -> bm_ok bm ch (r ++ [b]).
Proof.
  intros L B n Hn. apply B. rewrite elem_of_nibs in *. rewrite app_length in Hn.
  apply (f_equal (take (length r))) in Hn. rewrite take_app, take_take in Hn.
  rewrite <- Hn at 2. f_equal. simpl. lia.
Qed.
Lemma bm_ok_prefix bm ch r : bm_ok bm ch [] -> bm_ok bm ch r.
Proof. intros B n _. apply B. rewrite nibs_nil. apply all_nibbles_complete. Qed.

(** generate_bitmaps *)
Lemma bitmaps_fold (ch : children) (l : list nibble) : NoDup l -> forall bm n,
  let bm' := fold_left bitmaps_step (omap (fun n => c ← ch !! n; Some (n, c)) l) bm in
  N.testbit bm'.1 (nib_to_N n) = N.testbit bm.1 (nib_to_N n) || bool_decide (n ∈ l /\ is_Some (ch !! n)) /\
  N.testbit bm'.2 (nib_to_N n) = N.testbit bm.2 (nib_to_N n) || (bool_decide (n ∈ l) && is_leaf_slot (ch !! n)).
Proof.
  induction 1 as [|m l Hm Hl IH]; intros bm n.
  - cbn [omap list_omap fold_left]. cbn zeta.
    rewrite (bool_decide_false (n ∈ [] /\ _)) by (intros [E%elem_of_nil _]; done).
    rewrite (bool_decide_false (n ∈ [])) by (intros E%elem_of_nil; done). simpl. by rewrite !orb_false_r.
  - cbn [omap list_omap].
    assert (Bit : forall x, N.testbit (N.lor x (N.shiftl 1 (nib_to_N m))) (nib_to_N n) =
                       N.testbit x (nib_to_N n) || bool_decide (n = m)).
    { intros x. rewrite N.lor_spec, N.shiftl_1_l. f_equal. apply eq_true_iff_eq.
      rewrite N.pow2_bits_eqb, N.eqb_eq, bool_decide_eq_true. split; [intros E; symmetry; by apply nib_to_N_inj|by intros ->]. }
    destruct (ch !! m) as [c|] eqn:Em; cbn [mbind option_bind].
    + simpl fold_left. specialize (IH (bitmaps_step bm (m, c)) n). cbn zeta in IH. destruct IH as [-> ->].
      unfold bitmaps_step; simpl. rewrite Bit. split.
      * rewrite <- orb_assoc. f_equal. apply eq_true_iff_eq.
        rewrite orb_true_iff, !bool_decide_eq_true, elem_of_cons. split; [|naive_solver].
        intros [->|[? ?]]; [|naive_solver]. rewrite Em. split; [by left|eauto].
      * destruct (c_is_leaf c) eqn:Hc.
        -- rewrite Bit, <- orb_assoc. f_equal. apply eq_true_iff_eq.
           rewrite orb_true_iff, !andb_true_iff, !bool_decide_eq_true, elem_of_cons.
           split; [|naive_solver]. intros [->|[? ?]]; [|naive_solver]. rewrite Em. split; [by left|done].
        -- f_equal. apply eq_true_iff_eq. rewrite !andb_true_iff, !bool_decide_eq_true, elem_of_cons.
           split; [naive_solver|]. intros [[->|?] E]; [|done]. rewrite Em in E. simpl in E. congruence.
    + specialize (IH bm n). cbn zeta in IH. destruct IH as [-> ->]. split.
      * f_equal. apply bool_decide_ext. rewrite elem_of_cons. split; [naive_solver|].
        intros [[->|?] E]; [|done]. rewrite Em in E. by destruct E.
      * f_equal. apply eq_true_iff_eq. rewrite !andb_true_iff, !bool_decide_eq_true, elem_of_cons.
        split; [naive_solver|]. intros [[->|?] E]; [|done]. rewrite Em in E. done.
Qed.
Lemma bitmaps_fold_lor l : forall bm, N.lor bm.1 bm.2 = bm.1 ->
  let bm' := fold_left bitmaps_step l bm in N.lor bm'.1 bm'.2 = bm'.1.
Proof.
  induction l as [|[n c] l IH]; intros bm E; [done|]. simpl fold_left. apply IH.
  unfold bitmaps_step; cbn [fst snd]. generalize (N.shiftl 1 (nib_to_N n)) as z. intros z. destruct (c_is_leaf c).
  - apply N.bits_inj. intros i. apply (f_equal (fun x => N.testbit x i)) in E. cbv beta in E. clear IH.
    rewrite !N.lor_spec in *. destruct (N.testbit bm.1 i), (N.testbit bm.2 i), (N.testbit z i); done.
  - apply N.bits_inj. intros i. apply (f_equal (fun x => N.testbit x i)) in E. cbv beta in E. clear IH.
    rewrite !N.lor_spec in *. destruct (N.testbit bm.1 i), (N.testbit bm.2 i), (N.testbit z i); done.
Qed.
Lemma generate_bitmaps_spec i : exists bm, generate_bitmaps i = Ok bm /\ bm_ok bm (in_children i) [].
Proof.
  unfold generate_bitmaps. eexists. split.
  - rewrite (proj2 (N.eqb_eq _ _)); [reflexivity|]. apply bitmaps_fold_lor. reflexivity.
  - intros n Hn. destruct (bitmaps_fold (in_children i) all_nibbles all_nibbles_nodup (0, 0)%N n) as [E1 E2].
    unfold children_iter. rewrite E1, E2. cbn [fst snd]. rewrite !N.bits_0. cbn [orb].
    split.
    + apply bool_decide_ext. split; [tauto|]. split; [apply all_nibbles_complete|done].
    + rewrite bool_decide_true by apply all_nibbles_complete. done.
Qed.

(** ** Specification of the hash of 2^h child slots *)
Section hash.
Context (H : list byte -> bytes32).
(** Empty: placeholder.  Exactly one child, a leaf (or the range is one slot): its hash.  Otherwise: the two halves. *)
Fixpoint slots_hash (h : nat) (slots : list (option child)) : hash :=
  let split :=
    match h with
    | O => SPARSE_MERKLE_PLACEHOLDER_HASH
    | S h' => internal_hash H (slots_hash h' (take (2 ^ h') slots)) (slots_hash h' (drop (2 ^ h') slots))
    end in
  match omap id slots with
  | [] => SPARSE_MERKLE_PLACEHOLDER_HASH
  | [c] => if c_is_leaf c || (h =? 0) then c_hash c else split
  | _ => split
  end.
Definition slots (ch : children) (r : list bool) : list (option child) := map (fun n => ch !! n) (nibs r).

Lemma omap_slots (ch : children) (l : list nibble) : omap id (map (fun n => ch !! n) l) =
  omap (fun n => ch !! n) (filter (fun n => is_Some (ch !! n)) l).
Proof.
  induction l as [|n l IH]; [done|]. cbn [map]. rewrite filter_cons. cbn [omap list_omap]. unfold id at 1.
  rewrite IH. destruct (ch !! n) as [c|] eqn:E.
  - rewrite decide_True by eauto. cbn [omap list_omap]. by rewrite E.
  - rewrite decide_False by (intros [? ?]; done). done.
Qed.
Lemma slots_pres ch r : omap id (slots ch r) = omap (fun n => ch !! n) (pres ch r).
Proof. apply omap_slots. Qed.
Lemma pres_some ch r n l : pres ch r = n :: l -> exists c, ch !! n = Some c.
Proof.
  intros E. assert (n ∈ pres ch r) as Hn by (rewrite E; apply elem_of_list_here).
  apply elem_of_pres in Hn as [_ [c Hc]]. eauto.
Qed.
Lemma slots_halves ch r h : length r + S h = 4 ->
  take (2 ^ h) (slots ch r) = slots ch (r ++ [false]) /\ drop (2 ^ h) (slots ch r) = slots ch (r ++ [true]).
Proof.
  intros L. unfold slots. destruct (nibs_halves r h L) as [<- <-]. rewrite <- !fmap_take, <- !fmap_drop. done.
Qed.
Lemma pres_empty_bit (rb : N * N) ch r : small rb.1 -> set16 rb.1 = pres ch r -> (rb.1 =? 0)%N = bool_decide (pres ch r = []).
Proof.
  intros Hs E. apply eq_true_iff_eq. rewrite N.eqb_eq, bool_decide_eq_true, <- E. by apply set16_nil.
Qed.
(** exactly one child and it is a leaf *)
Lemma rl_nonzero_single (rb : N * N) (ch : children) r n c :
  (rb.2 = 0%N <-> forall n, n ∈ nibs r -> is_leaf_slot (ch !! n) = false) ->
  pres ch r = [n] -> ch !! n = Some c -> negb (rb.2 =? 0)%N = c_is_leaf c.
Proof.
  intros R P Ec. assert (n ∈ pres ch r) as Hn by (rewrite P; apply elem_of_list_here).
  apply elem_of_pres in Hn as [Hn _].
  destruct (c_is_leaf c) eqn:Hc.
  - destruct (N.eqb_spec rb.2 0) as [Z|]; [|done]. rewrite R in Z. specialize (Z n Hn). rewrite Ec in Z. simpl in Z. congruence.
  - destruct (N.eqb_spec rb.2 0) as [Z|Z]; [done|]. exfalso. apply Z, R. intros m Hm.
    destruct (ch !! m) as [c'|] eqn:Em; [|done].
    assert (m ∈ pres ch r) as Hm2 by (apply elem_of_pres; rewrite Em; eauto).
    rewrite P in Hm2. apply elem_of_list_singleton in Hm2 as ->. rewrite Ec in Em. by injection Em as <-.
Qed.

Lemma merkle_hash_slots i : forall h r bm, length r + h = 4 -> bm_ok bm (in_children i) r ->
  merkle_hash H i h (pstart r) bm = Ok (slots_hash h (slots (in_children i) r)).
Proof.
  set (ch := in_children i).
  induction h as [|h IH]; intros r bm L B.
  - destruct (range_spec r 0 bm ch L B) as (rb & E & S1 & S2 & B' & P & R).
    cbn [merkle_hash slots_hash]. rewrite E, bind_Ok, (pres_empty_bit rb ch r) by done. rewrite slots_pres.
    destruct (pres ch r) as [|n l] eqn:Ep; [reflexivity|].
    rewrite bool_decide_false by done. cbn [has_only_child Nat.eqb orb].
    destruct (nibs_4' r) as [m ->]; [lia|].
    assert (l = [] /\ n = m) as [-> ->].
    { unfold pres in Ep. rewrite nibs_4 in Ep. rewrite filter_cons, filter_nil in Ep. case_decide; naive_solver. }
    destruct (pres_some _ _ _ _ Ep) as [c Ec].
    rewrite trailing_zeros_set16, P, nib_from_u8_nib, bind_Ok. unfold in_child. fold ch.
    cbn [omap list_omap]. rewrite Ec. cbn [unwrap]. rewrite bind_Ok, orb_true_r. done.
  - destruct (range_spec r (S h) bm ch L B) as (rb & E & S1 & S2 & B' & P & R).
    cbn [merkle_hash slots_hash]. rewrite E, bind_Ok, (pres_empty_bit rb ch r) by done. rewrite slots_pres.
    assert (Rec : (l ← merkle_hash H i h (pstart r) rb;
                   r0 ← merkle_hash H i h (pstart r + 2 ^ N.of_nat (S h) / 2) rb;
                   Ok (internal_hash H l r0)) =
                  Ok (internal_hash H (slots_hash h (take (2 ^ h) (slots ch r))) (slots_hash h (drop (2 ^ h) (slots ch r))))).
    { destruct (slots_halves ch r h L) as [-> ->].
      rewrite <- (pstart_true r h L). rewrite <- (pstart_false r h L) at 1.
      rewrite (IH (r ++ [false]) rb); [|rewrite app_length; simpl; lia|apply bm_ok_sub; [lia|done]]. rewrite bind_Ok.
      rewrite (IH (r ++ [true]) rb); [|rewrite app_length; simpl; lia|apply bm_ok_sub; [lia|done]]. done. }
    destruct (pres ch r) as [|n l] eqn:Ep; [reflexivity|].
    rewrite bool_decide_false by done.
    destruct (pres_some _ _ _ _ Ep) as [c Ec].
    unfold has_only_child. rewrite count_ones_set16, P. cbn [Nat.eqb orb omap list_omap length]. rewrite Ec.
    destruct l as [|n2 l].
    + cbn [length Nat.eqb andb omap list_omap]. rewrite (rl_nonzero_single rb ch r n c R Ep Ec), orb_false_r.
      destruct (c_is_leaf c).
      * rewrite trailing_zeros_set16, P, nib_from_u8_nib, bind_Ok. unfold in_child. fold ch.
        rewrite Ec. reflexivity.
      * exact Rec.
    + cbn [length Nat.eqb andb omap list_omap].
      assert (exists c2, ch !! n2 = Some c2) as [c2 Ec2].
      { assert (n2 ∈ pres ch r) as Hn by (rewrite Ep; apply elem_of_list_further, elem_of_list_here).
        apply elem_of_pres in Hn as [_ [c2 Hc2]]. eauto. }
      rewrite Ec2. exact Rec.
Qed.
Lemma in_hash_slots i : in_hash H i = Ok (slots_hash 4 (slots (in_children i) [])).
Proof.
  unfold in_hash. destruct (generate_bitmaps_spec i) as (bm & -> & B). rewrite bind_Ok.
  exact (merkle_hash_slots i 4 [] bm eq_refl B).
Qed.
Lemma sm_internal_from_slots i : sm_internal_from H i =
  Ok (SMInternal (slots_hash 3 (slots (in_children i) [false])) (slots_hash 3 (slots (in_children i) [true]))).
Proof.
  unfold sm_internal_from. destruct (generate_bitmaps_spec i) as (bm & -> & B). rewrite bind_Ok.
  change 0%N with (pstart [false]). change 8%N with (pstart [true]).
  rewrite (merkle_hash_slots i 3 [false] bm eq_refl) by (by apply bm_ok_prefix). rewrite bind_Ok.
  rewrite (merkle_hash_slots i 3 [true] bm eq_refl) by (by apply bm_ok_prefix). done.
Qed.
End hash.
