(** C95: what is logged identifies what it is about: two keys logged alike are the same key; so for hashes and paths. *)
From Coq Require Import Strings.String.
From Verif Require Import Base LogFormat.

Definition all_bytes : list byte := map (fun i => byte_of_N (N.of_nat i)) (seq 0 256).
Lemma all_bytes_in b : b ∈ all_bytes.
Proof. apply elem_of_list_fmap. exists (N.to_nat (Byte.to_N b)). split; [by rewrite N2Nat.id, byte_of_to_N|]. apply elem_of_seq. pose proof (Byte.to_N_bounded b). lia. Qed.
Definition is_prefix (x y : list byte) : bool := bool_decide (take (length x) y = x).
Lemma is_prefix_app x z : is_prefix x (x ++ z) = true.
Proof. unfold is_prefix. apply bool_decide_eq_true_2. apply take_app. Qed.
(** No escape sequence is the beginning of another, and none begins with the quote that ends the text. *)
Lemma escape_prefix_free b c : is_prefix (escape_byte b) (escape_byte c) = true -> b = c.
Proof.
  intros E. assert (Q : forallb (fun b => forallb (fun c => implb (is_prefix (escape_byte b) (escape_byte c)) (bool_decide (b = c))) all_bytes) all_bytes = true) by (vm_compute; reflexivity).
  pose proof (proj1 (forallb_forall _ _) Q b (proj1 (elem_of_list_In _ _) (all_bytes_in b))) as Q1. pose proof (proj1 (forallb_forall _ _) Q1 c (proj1 (elem_of_list_In _ _) (all_bytes_in c))) as Q2. cbv beta in Q2. rewrite E in Q2. by apply bool_decide_eq_true_1 in Q2.
Qed.
Lemma escape_head b : exists x l, escape_byte b = x :: l /\ x <> x22.
Proof.
  assert (Q : forallb (fun b => match escape_byte b with x :: _ => bool_decide (x <> x22) | [] => false end) all_bytes = true) by (vm_compute; reflexivity).
  pose proof (proj1 (forallb_forall _ _) Q b (proj1 (elem_of_list_In _ _) (all_bytes_in b))) as Q1. cbv beta in Q1. destruct (escape_byte b) as [|x l]; [discriminate Q1|]. exists x, l. split; [done|]. by apply bool_decide_eq_true_1 in Q1.
Qed.
Lemma app_prefix {A} (x y z w : list A) : x ++ z = y ++ w -> x = take (length x) y \/ y = take (length y) x.
Proof.
  intros E. destruct (decide (length x <= length y)) as [L|L]; [left|right].
  - apply (f_equal (take (length x))) in E. rewrite take_app in E. by rewrite take_app_le in E by done.
  - apply (f_equal (take (length y))) in E. rewrite take_app in E. by rewrite take_app_le in E by lia.
Qed.
(** The text of a key, whatever follows it in the log, can be read back in one way only. *)
Theorem C95_key_text l l' rest rest' : escaped_bytes l ++ rest = escaped_bytes l' ++ rest' -> l = l' /\ rest = rest'.
Proof.
  unfold escaped_bytes. intros E. cbn [app] in E. injection E as E. rewrite <- !app_assoc in E. revert l' E. induction l as [|b l IH]; intros [|c l'] E; cbn [flat_map app] in E.
  - injection E as E. done.
  - exfalso. destruct (escape_head c) as (x & t & Ec & N). rewrite Ec in E. injection E as E _. congruence.
  - exfalso. destruct (escape_head b) as (x & t & Ec & N). rewrite Ec in E. injection E as E _. congruence.
  - rewrite <- !app_assoc in E. assert (Ebc : b = c).
    { destruct (app_prefix _ _ _ _ E) as [P|P]; [|symmetry]; apply escape_prefix_free; unfold is_prefix; by apply bool_decide_eq_true_2. }
    subst c. apply app_inv_head in E. destruct (IH l' E) as [-> ->]. done.
Qed.
(** The text is plain ASCII without control characters. *)
Theorem C95_printable l c : c ∈ escaped_bytes l -> (32 <= Byte.to_N c < 127)%N.
Proof.
  assert (Q : forallb (fun b => forallb (fun c => ((32 <=? Byte.to_N c) && (Byte.to_N c <? 127))%N) (escape_byte b)) all_bytes = true) by (vm_compute; reflexivity).
  unfold escaped_bytes. rewrite !elem_of_app. intros [Hc|[Hc|Hc]].
  - apply elem_of_cons in Hc as [->|Hc]; [cbn; lia|]. apply elem_of_list_singleton in Hc as ->. cbn. lia.
  - apply elem_of_list_In, in_flat_map in Hc as (b & _ & Hc). pose proof (proj1 (forallb_forall _ _) Q b (proj1 (elem_of_list_In _ _) (all_bytes_in b))) as Q1. cbv beta in Q1.
    pose proof (proj1 (forallb_forall _ _) Q1 c Hc) as Q2. cbv beta in Q2. apply andb_prop in Q2 as [A B]. apply N.leb_le in A. apply N.ltb_lt in B. done.
  - apply elem_of_list_singleton in Hc as ->. cbn. lia.
Qed.
Lemma hex_digit_inj n m : (n < 16)%N -> (m < 16)%N -> hex_digit n = hex_digit m -> n = m.
Proof.
  intros L1 L2 E. assert (G : forall n, (n < 16)%N -> n ∈ map N.of_nat (seq 0 16)) by (intros n' L; apply elem_of_list_fmap; exists (N.to_nat n'); split; [by rewrite N2Nat.id|apply elem_of_seq; lia]).
  assert (Q : forallb (fun n => forallb (fun m => implb (bool_decide (hex_digit n = hex_digit m)) (N.eqb n m)) (map N.of_nat (seq 0 16))) (map N.of_nat (seq 0 16)) = true) by (vm_compute; reflexivity).
  pose proof (proj1 (forallb_forall _ _) Q n (proj1 (elem_of_list_In _ _) (G n L1))) as Q1. pose proof (proj1 (forallb_forall _ _) Q1 m (proj1 (elem_of_list_In _ _) (G m L2))) as Q2. cbv beta in Q2.
  rewrite bool_decide_eq_true_2 in Q2 by done. by apply N.eqb_eq.
Qed.
Lemma hex2_inj b c : hex2 b = hex2 c -> b = c.
Proof.
  intros E. unfold hex2 in E. injection E as E1 E2.
  assert (Hi : forall b, (N.shiftr (Byte.to_N b) 4 < 16)%N) by (intros a; pose proof (Byte.to_N_bounded a); rewrite N.shiftr_div_pow2; change (2 ^ 4)%N with 16%N; apply N.div_lt_upper_bound; lia).
  assert (Lo : forall b, (N.land (Byte.to_N b) 15 < 16)%N) by (intros a; change 15%N with (N.ones 4); rewrite N.land_ones; by apply N.mod_lt).
  pose proof (hex_digit_inj _ _ (Hi b) (Hi c) E1) as F1. pose proof (hex_digit_inj _ _ (Lo b) (Lo c) E2) as F2. clear E1 E2. rename F1 into E1. rename F2 into E2.
  rewrite <- (byte_of_to_N b), <- (byte_of_to_N c). f_equal. rewrite !N.shiftr_div_pow2 in E1. change 15%N with (N.ones 4) in E2. rewrite !N.land_ones in E2.
  rewrite (N.div_mod (Byte.to_N b) (2 ^ 4)), (N.div_mod (Byte.to_N c) (2 ^ 4)) by done. congruence.
Qed.
Lemma hex_encode_inj x : forall y, hex_encode x = hex_encode y -> x = y.
Proof.
  induction x as [|b x IH]; intros [|c y] E; cbn [hex_encode flat_map] in E; [done|discriminate E|discriminate E|]. assert (Eh : hex2 b = hex2 c) by exact (f_equal (take 2) E).
  rewrite Eh in E. apply app_inv_head in E. by rewrite (hex2_inj b c Eh), (IH y E).
Qed.
Theorem C95_hash_text name h h' : debug_hash name h = debug_hash name h' -> h = h'.
Proof. unfold debug_hash. intros E. apply app_inv_head in E. cbn [app] in E. injection E as E. apply app_inv_tail in E. by apply b32_inj, hex_encode_inj. Qed.
Theorem C95_path_text p q : debug_path p = debug_path q -> p = q.
Proof.
  unfold debug_path. revert q. induction p as [|a p IH]; intros [|b q] E; cbn [map] in E; [done|discriminate E|discriminate E|]. injection E as E1 E2.
  apply hex_digit_inj in E1; [|apply nib_to_N_lt..]. by rewrite (nib_to_N_inj _ _ E1), (IH q E2).
Qed.
(** Concrete texts. *)
Theorem C95_demo : escaped_bytes [x61; x0a; x00; x31; x22; xff] = list_byte_of_string "b""a\n\01\""\xff""" /\ escaped_bytes [] = list_byte_of_string "b""""" /\
  debug_hash "KeyHash" SPARSE_MERKLE_PLACEHOLDER_HASH = list_byte_of_string "KeyHash(""5350415253455f4d45524b4c455f504c414345484f4c4445525f484153485f5f"")" /\
  debug_path [Nib false false false true; Nib true true true true] = list_byte_of_string "1f".
Proof. split; [|split; [|split]]; vm_compute; reflexivity. Qed.
(** All digits, and the bounds of the printable characters. *)
Theorem C95_boundaries : escaped_bytes (map byte_of_N [0; 1; 8; 9; 10; 11; 12; 13; 14; 31; 32; 33; 34; 35; 47; 48; 91; 92; 93; 126; 127; 128; 255]%N) =
    list_byte_of_string "b""\0\x01\x08\t\n\x0b\x0c\r\x0e\x1f !\""#/0[\\]~\x7f\x80\xff""" /\
  hex_encode (map byte_of_N [0x01; 0x23; 0x45; 0x67; 0x89; 0xab; 0xcd; 0xef]%N) = list_byte_of_string "0123456789abcdef".
Proof. split; vm_compute; reflexivity. Qed.
