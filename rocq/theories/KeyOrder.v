(** The byte order of keys is a strict total order. *)
From Verif Require Import Base Spec Mock.
From Coq Require Import Lia.

Lemma byte_N_inj (a b : byte) : Byte.to_N a = Byte.to_N b -> a = b.
Proof. intros E. rewrite <- (byte_of_to_N a), <- (byte_of_to_N b). by rewrite E. Qed.
Lemma bytes_compare_eq x : forall y, bytes_compare x y = Eq <-> x = y.
Proof.
  induction x as [|a x IH]; intros [|b y]; cbn; try done.
  destruct (N.compare_spec (Byte.to_N a) (Byte.to_N b)) as [E|L|G].
  - apply byte_N_inj in E as ->. rewrite IH. split; congruence.
  - split; [done|]. intros [= -> ->]. lia.
  - split; [done|]. intros [= -> ->]. lia.
Qed.
Lemma bytes_compare_antisym x : forall y, bytes_compare y x = CompOpp (bytes_compare x y).
Proof.
  induction x as [|a x IH]; intros [|b y]; cbn; try done.
  rewrite (N.compare_antisym (Byte.to_N a) (Byte.to_N b)). destruct (N.compare _ _); cbn; auto.
Qed.
Lemma bytes_lt_trans x : forall y z, bytes_compare x y = Lt -> bytes_compare y z = Lt -> bytes_compare x z = Lt.
Proof.
  induction x as [|a x IH]; intros [|b y] [|c z]; cbn; try done.
  destruct (N.compare_spec (Byte.to_N a) (Byte.to_N b)) as [E|L|G]; try done;
  destruct (N.compare_spec (Byte.to_N b) (Byte.to_N c)) as [E2|L2|G2]; try done; intros A B;
  destruct (N.compare_spec (Byte.to_N a) (Byte.to_N c)) as [E3|L3|G3]; try done; try lia. by eapply IH.
Qed.

Lemma key_compare_eq x y : key_compare x y = Eq <-> x = y.
Proof. unfold key_compare. rewrite bytes_compare_eq. split; [apply b32_inj|by intros ->]. Qed.
Lemma key_compare_antisym x y : key_compare y x = CompOpp (key_compare x y).
Proof. apply bytes_compare_antisym. Qed.
Lemma key_lt_trans x y z : key_lt x y -> key_lt y z -> key_lt x z.
Proof. unfold key_lt, key_compare. apply bytes_lt_trans. Qed.
Lemma key_lt_irrefl x : ~ key_lt x x.
Proof. unfold key_lt. assert (key_compare x x = Eq) as -> by (by apply key_compare_eq). done. Qed.
Lemma key_lt_total x y : key_lt x y \/ x = y \/ key_lt y x.
Proof.
  unfold key_lt. destruct (key_compare x y) eqn:E; [right; left; by apply key_compare_eq|by left|].
  right; right. by rewrite key_compare_antisym, E.
Qed.
Lemma key_ltb_lt x y : key_ltb x y = true <-> key_lt x y.
Proof. unfold key_ltb, key_lt. by destruct (key_compare x y). Qed.
Lemma key_ltb_ge x y : key_ltb x y = false <-> key_le y x.
Proof.
  unfold key_ltb, key_le, key_lt. rewrite (key_compare_antisym x y). destruct (key_compare x y) eqn:E; cbn.
  - apply key_compare_eq in E as ->. split; [by left|done].
  - split; [done|]. intros [->|?]; [|done]. assert (key_compare x x = Eq) by (by apply key_compare_eq). congruence.
  - split; [by right|done].
Qed.
Global Instance key_le_trans : Transitive key_le.
Proof. intros x y z [->|A] [->|B]; unfold key_le; auto. right. by eapply key_lt_trans. Qed.
Global Instance key_lt_dec x y : Decision (key_lt x y).
Proof. unfold key_lt. apply _. Defined.
Global Instance key_le_dec x y : Decision (key_le x y).
Proof. unfold key_le. apply _. Defined.
Lemma key_le_total x y : key_le x y \/ key_le y x.
Proof. unfold key_le. destruct (key_lt_total x y) as [|[->|]]; auto. Qed.
Lemma key_le_antisym x y : key_le x y -> key_le y x -> x = y.
Proof. intros [->|A] [?|B]; auto. exfalso. by apply (key_lt_irrefl x), (key_lt_trans _ y). Qed.
Lemma key_lt_not_le x y : key_lt x y <-> ~ key_le y x.
Proof.
  split.
  - intros A [->|B]; [by apply key_lt_irrefl in A|]. by apply (key_lt_irrefl x), (key_lt_trans _ y).
  - intros N. destruct (key_lt_total x y) as [|[->|]]; [done| |]; exfalso; apply N; unfold key_le; auto.
Qed.

(** order of the value map *)
Lemma vk_le_spec a b : vk_le a b <-> (a.1.1 < b.1.1)%N \/ a.1.1 = b.1.1 /\ key_le a.1.2 b.1.2.
Proof.
  unfold vk_le. destruct a as [[v k] x], b as [[w l] y]. cbn. rewrite orb_true_iff, andb_true_iff, N.ltb_lt, N.eqb_eq, negb_true_iff, key_ltb_ge. done.
Qed.
Global Instance vk_le_trans : Transitive vk_le.
Proof.
  intros a b c. rewrite !vk_le_spec. intros [A|[A1 A2]] [B|[B1 B2]]; [left; lia|left; lia|left; lia|right].
  split; [congruence|]. by transitivity (b.1.2).
Qed.
Global Instance vk_le_total : Total vk_le.
Proof.
  intros a b. rewrite !vk_le_spec. destruct (N.lt_trichotomy a.1.1 b.1.1) as [|[|]]; auto.
  destruct (key_le_total a.1.2 b.1.2); auto.
Qed.
