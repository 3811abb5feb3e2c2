(** Lemmas about packed nibble paths. *)
From Verif Require Import Base Spec KeyFacts NibblePath ThmNode.
From Coq Require Import Lia.
Local Open Scope nat_scope.

Lemma destruct_list_last {A} (l : list A) : l = [] \/ exists l0 x, l = l0 ++ [x].
Proof. induction l as [|x l _] using rev_ind; [by left|right; by exists l, x]. Qed.
Definition zero_nibble : nibble := Nib false false false false.
(** The packed bytes hold the nibbles, two per byte, padded with a zero nibble when their number is odd. *)
Definition represents (p : npath) (l : list nibble) : Prop :=
  np_num p = length l /\ bytes_nibbles (np_bytes p) = l ++ (if Nat.even (length l) then [] else [zero_nibble]).

Definition join (h l : nibble) : byte := byte_of_N (N.lor (N.shiftl (nib_to_N h) 4) (nib_to_N l)).
Lemma hi_join h l : byte_hi (join h l) = h.
Proof. destruct h as [[] [] [] []], l as [[] [] [] []]; reflexivity. Qed.
Lemma lo_join h l : byte_lo (join h l) = l.
Proof. destruct h as [[] [] [] []], l as [[] [] [] []]; reflexivity. Qed.
Lemma join_hilo b : join (byte_hi b) (byte_lo b) = b.
Proof. apply byte_pack. Qed.
Lemma join_push n : byte_of_N (N.shiftl (nib_to_N n) 4) = join n zero_nibble.
Proof. destruct n as [[] [] [] []]; reflexivity. Qed.
Lemma join_or h n : byte_of_N (N.lor (Byte.to_N (join h zero_nibble)) (nib_to_N n)) = join h n.
Proof. destruct h as [[] [] [] []], n as [[] [] [] []]; reflexivity. Qed.
Lemma join_mask h n : byte_of_N (u8_and (join h n) 240) = join h zero_nibble.
Proof. destruct h as [[] [] [] []], n as [[] [] [] []]; reflexivity. Qed.
Lemma low_join h n : nib_from_u8 (u8_and (join h n) 15) = Ok n.
Proof. destruct h as [[] [] [] []], n as [[] [] [] []]; reflexivity. Qed.
Lemma high_join h n : nib_from_u8 (u8_shr (join h n) 4) = Ok h.
Proof. destruct h as [[] [] [] []], n as [[] [] [] []]; reflexivity. Qed.
Lemma low_u8 b : nib_from_u8 (N.land (u8_shr b 0) 15) = Ok (byte_lo b).
Proof. destruct b; reflexivity. Qed.
Lemma high_u8 b : nib_from_u8 (N.land (u8_shr b 4) 15) = Ok (byte_hi b).
Proof. destruct b; reflexivity. Qed.
Lemma bytes_nibbles_app x y : bytes_nibbles (x ++ y) = bytes_nibbles x ++ bytes_nibbles y.
Proof. apply flat_map_app. Qed.
Lemma bytes_nibbles_len x : length (bytes_nibbles x) = length x * 2.
Proof. unfold bytes_nibbles. rewrite (flat_map_length_const _ 2); [lia|done]. Qed.
Lemma even_bytes x : Nat.even (length (bytes_nibbles x)) = true.
Proof. rewrite bytes_nibbles_len. apply Nat.even_spec. exists (length x). lia. Qed.
Lemma even_bytes1 x n : Nat.even (length (bytes_nibbles x ++ [n])) = false.
Proof. rewrite app_length. cbn [length]. rewrite Nat.add_1_r, Nat.even_succ, <- Nat.negb_even, even_bytes. done. Qed.

Lemma rep_even bs : represents (NP (length bs * 2) bs) (bytes_nibbles bs).
Proof. split; cbn [np_num np_bytes]; [by rewrite bytes_nibbles_len|]. by rewrite even_bytes, app_nil_r. Qed.
Lemma rep_odd bs h : represents (NP (length bs * 2 + 1) (bs ++ [join h zero_nibble])) (bytes_nibbles bs ++ [h]).
Proof.
  split; cbn [np_num np_bytes]; [by rewrite app_length, bytes_nibbles_len|].
  rewrite even_bytes1, bytes_nibbles_app. cbn [bytes_nibbles flat_map byte_nibbles app]. rewrite hi_join, lo_join, <- app_assoc. done.
Qed.
Lemma rep_cases p l : represents p l ->
  (exists bs, l = bytes_nibbles bs /\ p = NP (length bs * 2) bs) \/
  (exists bs h, l = bytes_nibbles bs ++ [h] /\ p = NP (length bs * 2 + 1) (bs ++ [join h zero_nibble])).
Proof.
  destruct p as [n bs]. intros [En Eb]; cbn [np_num np_bytes] in *. destruct (Nat.even (length l)) eqn:Ev.
  - left. exists bs. rewrite app_nil_r in Eb. split; [done|]. by rewrite En, <- Eb, bytes_nibbles_len.
  - right. destruct (destruct_list_last bs) as [->|(bs' & b & ->)]; [by destruct l|].
    rewrite bytes_nibbles_app in Eb. cbn [bytes_nibbles flat_map byte_nibbles app] in Eb. fold (bytes_nibbles bs') in Eb.
    change [byte_hi b; byte_lo b] with ([byte_hi b] ++ [byte_lo b]) in Eb. rewrite app_assoc in Eb. apply app_inj_tail in Eb as [<- Z].
    exists bs', (byte_hi b). split; [done|]. rewrite <- Z, join_hilo. f_equal. rewrite En, app_length, bytes_nibbles_len. done.
Qed.
Lemma rep_inj_l p l l' : represents p l -> represents p l' -> l = l'.
Proof.
  intros [A1 A2] [B1 B2]. assert (E : length l = length l') by lia. rewrite E in A2. rewrite A2 in B2. by apply app_inj_1 in B2 as [? _].
Qed.
Lemma rep_inj_p p q l : represents p l -> represents q l -> p = q.
Proof.
  destruct p as [n x], q as [m y]. intros [A1 A2] [B1 B2]; cbn [np_num np_bytes] in *. rewrite <- A2 in B2. apply bytes_nibbles_inj in B2 as ->. congruence.
Qed.
Lemma mod2_even m : (m * 2) mod 2 =? 0 = true.
Proof. by rewrite Nat.mod_mul. Qed.
Lemma mod2_odd m : (m * 2 + 1) mod 2 =? 0 = false.
Proof. by rewrite Nat.add_comm, Nat.mod_add. Qed.
Lemma div2_odd m : (m * 2 + 1) / 2 = m.
Proof. rewrite Nat.add_comm, Nat.div_add by lia. done. Qed.

Lemma np_push_ok p l n : represents p l -> length l < 64 -> exists p', np_push p n = Ok p' /\ represents p' (l ++ [n]).
Proof.
  intros R L. unfold np_push, ROOT_NIBBLE_HEIGHT. pose proof R as [En Eb]. rewrite En. rewrite (proj2 (Nat.ltb_lt _ _) L). cbn [assert_]. rewrite <- En.
  destruct (rep_cases _ _ (conj En Eb)) as [(bs & -> & ->)|(bs & h & -> & ->)]; cbn [np_num np_bytes].
  - rewrite mod2_even, join_push. cbn. eexists; split; [done|]. apply rep_odd.
  - rewrite mod2_odd, div2_odd. rewrite lookup_app_r, Nat.sub_diag by lia. cbn. eexists; split; [done|].
    rewrite insert_app_r_alt, Nat.sub_diag by lia. cbn [list_insert]. rewrite join_or. rewrite <- app_assoc. cbn [app].
    replace (bytes_nibbles bs ++ [h; n]) with (bytes_nibbles (bs ++ [join h n])) by (rewrite bytes_nibbles_app; cbn; by rewrite hi_join, lo_join).
    replace (length bs * 2 + 1 + 1) with (length (bs ++ [join h n]) * 2) by (rewrite app_length; cbn; lia). apply rep_even.
Qed.
Lemma np_push_full p l n : represents p l -> 64 <= length l -> np_push p n = Panic.
Proof. intros [En _] L. unfold np_push, ROOT_NIBBLE_HEIGHT. rewrite En. rewrite (proj2 (Nat.ltb_ge _ _) L). done. Qed.
Lemma np_pop_ok p l : represents p l -> exists p', np_pop p = Ok (last l, p') /\ represents p' (take (length l - 1) l).
Proof.
  intros R. destruct (rep_cases _ _ R) as [(bs & -> & ->)|(bs & h & -> & ->)]; unfold np_pop; cbn [np_num np_bytes].
  - rewrite mod2_even. destruct (destruct_list_last bs) as [->|(bs' & b & ->)]; [by eexists|]. rewrite last_snoc, app_length. cbn [length].
    rewrite <- (join_hilo b), low_join. cbn [mbind outcome_bind]. rewrite (proj2 (Nat.leb_le _ _)) by lia. cbn [assert_].
    rewrite Nat.add_sub, insert_app_r_alt, Nat.sub_diag by lia. cbn [list_insert]. rewrite join_mask, bytes_nibbles_app.
    cbn [bytes_nibbles flat_map byte_nibbles app]. fold (bytes_nibbles bs'). rewrite hi_join, lo_join.
    change [byte_hi b; byte_lo b] with ([byte_hi b] ++ [byte_lo b]). rewrite app_assoc, last_snoc. eexists; split; [done|].
    rewrite app_length. cbn [length]. rewrite Nat.add_sub, take_app.
    replace ((length bs' + 1) * 2 - 1) with (length bs' * 2 + 1) by lia. apply rep_odd.
  - rewrite mod2_odd, !last_snoc, !app_length. cbn [length]. rewrite high_join. cbn [mbind outcome_bind]. rewrite (proj2 (Nat.leb_le _ _)) by lia. cbn [assert_ mbind outcome_bind].
    rewrite !Nat.add_sub, !take_app. eexists; split; [done|]. apply rep_even.
Qed.
Lemma np_last_ok p l : represents p l -> np_last p = Ok (last l).
Proof.
  intros R. destruct (rep_cases _ _ R) as [(bs & -> & ->)|(bs & h & -> & ->)]; unfold np_last; cbn [np_num np_bytes].
  - rewrite mod2_even. destruct (destruct_list_last bs) as [->|(bs' & b & ->)]; [done|]. rewrite last_snoc, <- (join_hilo b), low_join.
    rewrite bytes_nibbles_app. cbn [bytes_nibbles flat_map byte_nibbles app]. fold (bytes_nibbles bs'). rewrite hi_join, lo_join.
    change [byte_hi b; byte_lo b] with ([byte_hi b] ++ [byte_lo b]). rewrite app_assoc, last_snoc. done.
  - rewrite mod2_odd, !last_snoc. cbn [unwrap mbind outcome_bind]. by rewrite high_join.
Qed.
Lemma rep_lookup p l i : represents p l -> i < length l ->
  exists b, np_bytes p !! (i / 2) = Some b /\ l !! i = Some (if i mod 2 =? 0 then byte_hi b else byte_lo b).
Proof.
  intros [En Eb] L. pose proof (bytes_nibbles_lookup (np_bytes p) i) as E. rewrite Eb, lookup_app_l in E by done.
  destruct (lookup_lt_is_Some_2 l i L) as [n En']. rewrite En' in *. destruct (np_bytes p !! (i / 2)) as [b|]; [|done]. exists b. done.
Qed.
Lemma np_get_nibble_ok p l i : represents p l -> np_get_nibble p i = unwrap (l !! i).
Proof.
  intros R. unfold np_get_nibble. rewrite (proj1 R). destruct (decide (i < length l)) as [L|L].
  - rewrite (proj2 (Nat.ltb_lt _ _) L). cbn [assert_ mbind outcome_bind]. destruct (rep_lookup p l i R L) as (b & -> & ->). cbn [unwrap mbind outcome_bind].
    pose proof (Nat.mod_upper_bound i 2 ltac:(lia)). destruct (i mod 2) as [|[|?]]; cbn [Nat.eqb]; [apply high_u8|apply low_u8|lia].
  - rewrite (proj2 (Nat.ltb_ge i (length l))) by lia. rewrite (lookup_ge_None_2 l i) by lia. done.
Qed.
Definition bit_of (b : byte) (j : nat) : bool := negb (N.land (u8_shr b (N.of_nat (7 - j))) 1 =? 0)%N.
Lemma byte_bits_lookup b j : j < 8 -> (nib_bits (byte_hi b) ++ nib_bits (byte_lo b)) !! j = Some (bit_of b j).
Proof. intros L. do 8 (destruct j as [|j]; [destruct b; reflexivity|]). lia. Qed.
Lemma nib_bit_lookup n l i : forall (j : nat), j < 4 -> l !! i = Some n -> flat_map nib_bits l !! (i * 4 + j) = nib_bits n !! j.
Proof.
  revert i; induction l as [|m l IH]; intros i j Hj E; [done|]. destruct i as [|i].
  - injection E as ->. cbn [flat_map]. rewrite lookup_app_l; [done|]. rewrite nib_bits_length. lia.
  - cbn [flat_map]. rewrite lookup_app_r by (rewrite nib_bits_length; lia). rewrite nib_bits_length.
    replace (Datatypes.S i * 4 + j - 4) with (i * 4 + j) by lia. by apply IH.
Qed.
Lemma bits_len l : length (flat_map nib_bits l) = length l * 4.
Proof. rewrite (flat_map_length_const _ 4), Nat.mul_comm; [done|apply nib_bits_length]. Qed.
Lemma np_get_bit_ok p l i : represents p l -> np_get_bit p i = unwrap (flat_map nib_bits l !! i).
Proof.
  intros R. unfold np_get_bit. rewrite (proj1 R). destruct (decide (i < length l * 4)) as [L|L].
  - rewrite (proj2 (Nat.ltb_lt _ _) L). cbn [assert_ mbind outcome_bind].
    assert (L4 : i / 4 < length l) by (apply Nat.div_lt_upper_bound; lia).
    destruct (rep_lookup p l (i / 4) R L4) as (b & Eb & El). rewrite Nat.div_div in Eb by lia. change (4 * 2) with 8 in Eb. rewrite Eb. cbn [unwrap mbind outcome_bind].
    pose proof (Nat.div_mod_eq i 4) as D4. pose proof (Nat.mod_upper_bound i 4 ltac:(lia)) as U4.
    replace (flat_map nib_bits l !! i) with (flat_map nib_bits l !! (i / 4 * 4 + i mod 4)) by (f_equal; lia). rewrite (nib_bit_lookup _ _ _ _ U4 El).
    change (negb (N.land (u8_shr b (N.of_nat (7 - i mod 8))) 1 =? 0)%N) with (bit_of b (i mod 8)).
    pose proof (byte_bits_lookup b (i mod 8) (Nat.mod_upper_bound i 8 ltac:(lia))) as B.
    change 8 with (4 * 2) in B at 1. rewrite Nat.mod_mul_r in B by lia. 
    pose proof (Nat.mod_upper_bound (i / 4) 2 ltac:(lia)). destruct ((i / 4) mod 2) as [|[|?]]; cbn [Nat.eqb]; [| |lia].
    + rewrite Nat.mul_0_r, Nat.add_0_r, lookup_app_l in B by (rewrite nib_bits_length; lia). rewrite B. done.
    + rewrite lookup_app_r in B by (rewrite nib_bits_length; lia). rewrite nib_bits_length in B. rewrite Nat.mul_1_r, Nat.add_sub in B. rewrite B. done.
  - rewrite (proj2 (Nat.ltb_ge i (length l * 4))) by lia. rewrite (lookup_ge_None_2 (flat_map nib_bits l) i); [done|]. rewrite bits_len. lia.
Qed.
