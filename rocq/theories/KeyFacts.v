(** Facts about keys as bytes, nibbles and bits. *)
From Verif Require Import Base Spec.
From Coq Require Import Lia.

Lemma byte_bits_nibbles (b : byte) : byte_bits b = flat_map nib_bits (byte_nibbles b).
Proof. destruct b; reflexivity. Qed.
Lemma byte_bits_length (b : byte) : length (byte_bits b) = 8.
Proof. reflexivity. Qed.
Lemma flat_map_app {A B} (f : A -> list B) l1 l2 :
  flat_map f (l1 ++ l2) = flat_map f l1 ++ flat_map f l2.
Proof. induction l1 as [|a l1 IH]; simpl; [done|]. by rewrite IH, app_assoc. Qed.
Lemma flat_map_flat_map {A B C} (f : A -> list B) (g : B -> list C) l :
  flat_map g (flat_map f l) = flat_map (fun a => flat_map g (f a)) l.
Proof. induction l as [|a l IH]; simpl; [done|]. by rewrite flat_map_app, IH. Qed.
Lemma flat_map_ext_all {A B} (f g : A -> list B) l : (forall a, f a = g a) -> flat_map f l = flat_map g l.
Proof. intros E. induction l as [|a l IH]; simpl; [done|]. by rewrite E, IH. Qed.
Lemma flat_map_length_const {A B} (f : A -> list B) c l :
  (forall a, length (f a) = c) -> length (flat_map f l) = c * length l.
Proof. intros E. induction l as [|a l IH]; simpl; [lia|]. rewrite app_length, E, IH. lia. Qed.

Lemma key_bits_nibbles (k : key) : key_bits k = flat_map nib_bits (key_nibbles k).
Proof.
  unfold key_bits, key_nibbles, bytes_nibbles. rewrite flat_map_flat_map.
  apply flat_map_ext_all, byte_bits_nibbles.
Qed.
Lemma key_nibbles_length (k : key) : length (key_nibbles k) = 64.
Proof.
  unfold key_nibbles, bytes_nibbles. rewrite (flat_map_length_const _ 2), b32_length; [done|].
  intros; reflexivity.
Qed.
Lemma key_bits_length (k : key) : length (key_bits k) = 256.
Proof.
  unfold key_bits. rewrite (flat_map_length_const _ 8), b32_length; [done|]. intros; reflexivity.
Qed.

Lemma byte_nibbles_inj (a b : byte) : byte_hi a = byte_hi b -> byte_lo a = byte_lo b -> a = b.
Proof.
  assert (R : forall c, byte_of_N (N.lor (N.shiftl (nib_to_N (byte_hi c)) 4) (nib_to_N (byte_lo c))) = c)
    by (intros c; destruct c; reflexivity).
  intros E1 E2. rewrite <- (R a), <- (R b), E1, E2. reflexivity.
Qed.
Lemma byte_pack (c : byte) :
  byte_of_N (N.lor (N.shiftl (nib_to_N (byte_hi c)) 4) (nib_to_N (byte_lo c))) = c.
Proof. destruct c; reflexivity. Qed.
Lemma cons2_inj {A} (p q r s : A) u w : p :: q :: u = r :: s :: w -> p = r /\ q = s /\ u = w.
Proof. intros [= -> -> ->]. done. Qed.
Lemma bytes_nibbles_inj (x y : list byte) : bytes_nibbles x = bytes_nibbles y -> x = y.
Proof.
  revert y; induction x as [|a x IH]; intros [|b y] E; try done.
  apply cons2_inj in E as (E1 & E2 & E3).
  f_equal; [by apply byte_nibbles_inj | by apply IH].
Qed.
Lemma key_nibbles_inj (x y : key) : key_nibbles x = key_nibbles y -> x = y.
Proof. intros E. apply b32_inj, bytes_nibbles_inj, E. Qed.
Lemma nib_bits_inj (a b : nibble) : nib_bits a = nib_bits b -> a = b.
Proof. destruct a, b; simpl; intros E; congruence. Qed.
Lemma nib_bits_length a : length (nib_bits a) = 4.
Proof. by destruct a. Qed.
Lemma flat_map_nib_bits_inj (x y : list nibble) : flat_map nib_bits x = flat_map nib_bits y -> x = y.
Proof.
  revert y; induction x as [|a x IH]; intros [|b y] E; simpl in E; try done.
  - destruct b; discriminate.
  - destruct a; discriminate.
  - destruct a, b; simpl in E. injection E as -> -> -> -> E. f_equal. by apply IH.
Qed.
Lemma key_bits_inj (x y : key) : key_bits x = key_bits y -> x = y.
Proof.
  rewrite !key_bits_nibbles. intros E. by apply key_nibbles_inj, flat_map_nib_bits_inj.
Qed.
Lemma bit_at_lookup k i : i < 256 -> key_bits k !! i = Some (bit_at k i).
Proof.
  intros Hi. unfold bit_at. rewrite <- (key_bits_length k) in Hi.
  apply lookup_lt_is_Some in Hi as [b Hb]. rewrite Hb. f_equal.
  symmetry. apply nth_lookup_Some with (d := false) in Hb. done.
Qed.
Lemma key_eq_bits x y : (forall i, i < 256 -> bit_at x i = bit_at y i) -> x = y.
Proof.
  intros E. apply key_bits_inj. apply list_eq_same_length with 256; rewrite ?key_bits_length; try done.
  intros i a b Hi. rewrite !bit_at_lookup by done. intros [= <-] [= <-]. by apply E.
Qed.
(** first n bits *)
Definition kpre (n : nat) (k : key) : list bool := take n (key_bits k).
Lemma kpre_S n k : n < 256 -> kpre (S n) k = kpre n k ++ [bit_at k n].
Proof. intros Hn. unfold kpre. by rewrite (take_S_r _ _ (bit_at k n)) by (by apply bit_at_lookup). Qed.
Lemma kpre_length n k : n <= 256 -> length (kpre n k) = n.
Proof. intros Hn. unfold kpre. rewrite take_length, key_bits_length. lia. Qed.
Lemma kpre_256 x y : kpre 256 x = kpre 256 y -> x = y.
Proof.
  unfold kpre. rewrite !take_ge by (rewrite key_bits_length; lia). apply key_bits_inj.
Qed.
Lemma kpre_le n m x y : n <= m -> kpre m x = kpre m y -> kpre n x = kpre n y.
Proof.
  intros Hnm E. unfold kpre in *.
  assert (R : forall k, take n (key_bits k) = take n (take m (key_bits k))).
  { intros k. rewrite take_take. f_equal. lia. }
  rewrite (R x), (R y), E. done.
Qed.
Lemma kpre_bit n m x y : n < m -> m <= 256 -> kpre m x = kpre m y -> bit_at x n = bit_at y n.
Proof.
  intros Hn Hm E. apply (kpre_le (S n)) in E; [|lia]. rewrite !kpre_S in E by lia.
  apply app_inj_2 in E as [_ E]; [|done]. by injection E.
Qed.
Lemma kpre_S_eq n x y : n < 256 -> kpre (S n) x = kpre (S n) y <-> kpre n x = kpre n y /\ bit_at x n = bit_at y n.
Proof.
  intros Hn. rewrite !kpre_S by done. split.
  - intros E. apply app_inj_2 in E as [E1 E2]; [|done]. injection E2 as E2. done.
  - intros [-> ->]. done.
Qed.

(** lcp *)
Lemma lcp_le_l {A} `{EqDecision A} (x y : list A) : lcp x y <= length x.
Proof. revert y; induction x as [|a x IH]; intros [|b y]; simpl; try lia. case_decide; [specialize (IH y)|]; lia. Qed.
Lemma lcp_le_r {A} `{EqDecision A} (x y : list A) : lcp x y <= length y.
Proof. revert y; induction x as [|a x IH]; intros [|b y]; simpl; try lia. case_decide; [specialize (IH y)|]; lia. Qed.
Lemma lcp_take {A} `{EqDecision A} (x y : list A) : take (lcp x y) x = take (lcp x y) y.
Proof.
  revert y; induction x as [|a x IH]; intros [|b y]; simpl; try done.
  case_decide as E; simpl; [|done]. subst. f_equal. apply IH.
Qed.
Lemma lcp_ge {A} `{EqDecision A} (x y : list A) n :
  n <= length x -> n <= length y -> take n x = take n y -> n <= lcp x y.
Proof.
  revert y n; induction x as [|a x IH]; intros [|b y] [|n]; simpl; intros Hx Hy E; try lia.
  injection E as -> E. rewrite decide_True by done.
  apply le_n_S, IH; [lia|lia|done].
Qed.
Lemma lcp_lookup_ne {A} `{EqDecision A} (x y : list A) a b :
  x !! lcp x y = Some a -> y !! lcp x y = Some b -> a <> b.
Proof.
  revert y; induction x as [|c x IH]; intros [|d y]; simpl; try done.
  case_decide as E; simpl; [subst; apply IH|]. intros [= ->] [= ->]. done.
Qed.
Lemma lcp_prefix {A} `{EqDecision A} (x y : list A) : x `prefix_of` y -> lcp x y = length x.
Proof.
  intros [z ->]. induction x as [|a x IH]; simpl; [done|]. rewrite decide_True by done. by rewrite IH.
Qed.
Lemma lcp_full {A} `{EqDecision A} (x y : list A) : lcp x y = length x -> x `prefix_of` y.
Proof.
  intros E. exists (drop (length x) y).
  pose proof (lcp_take x y) as T. rewrite E, firstn_all in T.
  rewrite <- (take_drop (length x) y) at 1. by rewrite <- T.
Qed.
Lemma lcp_sym {A} `{EqDecision A} (x y : list A) : lcp x y = lcp y x.
Proof.
  revert y; induction x as [|a x IH]; intros [|b y]; simpl; try done.
  case_decide as E; case_decide as E2; try congruence; by rewrite ?IH.
Qed.
Lemma lcp_app {A} `{EqDecision A} (p x y : list A) : lcp (p ++ x) (p ++ y) = length p + lcp x y.
Proof. induction p as [|a p IH]; simpl; [done|]. rewrite decide_True by done. by rewrite IH. Qed.

Lemma cpbl_kpre x y n : n <= 256 -> kpre n x = kpre n y -> n <= common_prefix_bits_len x y.
Proof. intros Hn E. apply lcp_ge; rewrite ?key_bits_length; auto. Qed.
Lemma cpbl_le x y n : n <= common_prefix_bits_len x y -> kpre n x = kpre n y.
Proof.
  intros Hn. apply (kpre_le _ (common_prefix_bits_len x y)); [done|].
  apply lcp_take.
Qed.
Lemma cpbl_bound x y : common_prefix_bits_len x y <= 256.
Proof. unfold common_prefix_bits_len. rewrite <- (key_bits_length x). apply lcp_le_l. Qed.
Lemma cpbl_ne x y : x <> y -> common_prefix_bits_len x y < 256.
Proof.
  intros Hne. destruct (decide (common_prefix_bits_len x y < 256)) as [|Hge]; [done|].
  destruct Hne. apply kpre_256, cpbl_le. lia.
Qed.
Lemma cpbl_bit_ne x y : x <> y -> bit_at x (common_prefix_bits_len x y) <> bit_at y (common_prefix_bits_len x y).
Proof.
  intros Hne. pose proof (cpbl_ne x y Hne) as Hlt.
  eapply lcp_lookup_ne; apply bit_at_lookup; done.
Qed.
Lemma cpbl_sym x y : common_prefix_bits_len x y = common_prefix_bits_len y x.
Proof. apply lcp_sym. Qed.
