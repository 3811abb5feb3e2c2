(** Base vocabulary of the model: outcomes, bytes, 32-byte strings, nibbles,
    bit strings, hashing.  Sources are cited as file:lines of /repo. *)
From Coq Require Import Strings.Byte Strings.String.
From Coq Require Export NArith.
From Coq Require Export Init.Byte.
From stdpp Require Export prelude gmap list.
Export ListNotations.
Local Open Scope N_scope.

(** ** Outcomes
    [Ok]/[Err] are Rust's [Result]; [Panic] is any panic (assert!, unwrap, expect,
    unreachable!, arithmetic overflow with overflow checks, allocation failure).
    Error texts are abbreviated to constructors. *)
Inductive error : Type :=
| EMissingRoot (v : N)       (* src/lib.rs:132-145 MissingRootError *)
| EMissingNode               (* src/reader.rs:13 "Missing node at .." *)
| EMissingValue              (* src/reader.rs:24 "Missing value with .." *)
| EOther (s : string).       (* any other bail!/ensure!/format_err! *)

(** What a call of the library comes to: anyhow::Result<A> (src/tree.rs:4, src/reader.rs:2), or a panic (unwrap, expect, assert!, unreachable!, index out of range, overflow in debug builds). *)
Inductive outcome (A : Type) : Type :=
| Ok (a : A)
| Err (e : error)
| Panic.
Arguments Ok {A} a. Arguments Err {A} e. Arguments Panic {A}.

Global Instance outcome_ret : MRet outcome := fun A a => Ok a.
Global Instance outcome_bind : MBind outcome := fun A B f m =>
  match m with Ok a => f a | Err e => Err e | Panic => Panic end.
Global Instance outcome_fmap : FMap outcome := fun A B f m =>
  match m with Ok a => Ok (f a) | Err e => Err e | Panic => Panic end.

(** [Option::unwrap]/[expect]: panic on [None]. *)
Definition unwrap {A} (o : option A) : outcome A :=
  match o with Some a => Ok a | None => Panic end.
(** [Option::ok_or_else]: error on [None]. *)
Definition ok_or {A} (e : error) (o : option A) : outcome A :=
  match o with Some a => Ok a | None => Err e end.
(** [assert!]. *)
Definition assert_ (b : bool) : outcome unit := if b then Ok tt else Panic.
(** [ensure!]. *)
Definition ensure_ (b : bool) (s : string) : outcome unit :=
  if b then Ok tt else Err (EOther s).

(** ** Bytes *)
Global Instance byte_eq_dec : EqDecision byte := Byte.byte_eq_dec.
Definition byte_of_N (n : N) : byte := default x00 (Byte.of_N n).
Lemma byte_of_to_N (b : byte) : byte_of_N (Byte.to_N b) = b.
Proof. unfold byte_of_N. rewrite Byte.of_to_N. reflexivity. Qed.
Global Instance byte_countable : Countable byte :=
  inj_countable' Byte.to_N byte_of_N byte_of_to_N.

(** ** 32-byte arrays: Rust's [[u8; 32]]; src/lib.rs:172-254 KeyHash, ValueHash, RootHash
    are newtypes over it and are all modelled by [bytes32]. *)
Record bytes32 : Type := B32 { b32 : list byte; b32_ok : (length b32 =? 32)%nat = true }.
Lemma b32_inj (x y : bytes32) : b32 x = b32 y -> x = y.
Proof.
  destruct x as [x Hx], y as [y Hy]; simpl; intros ->. f_equal. apply proof_irrel.
Qed.
Lemma b32_length (x : bytes32) : length (b32 x) = 32%nat.
Proof. destruct x as [x Hx]; simpl. apply Nat.eqb_eq, Hx. Qed.
(** [<[u8; 32]>::try_from(&[u8])]. *)
Definition to_bytes32 (l : list byte) : option bytes32 :=
  match bool_dec (length l =? 32)%nat true with
  | left H => Some (B32 l H)
  | right _ => None
  end.
Lemma to_bytes32_b32 (x : bytes32) : to_bytes32 (b32 x) = Some x.
Proof.
  unfold to_bytes32. destruct (bool_dec _ _) as [H|H].
  - f_equal. apply b32_inj. reflexivity.
  - destruct H. apply b32_ok.
Qed.
Global Instance bytes32_eq_dec : EqDecision bytes32.
Proof.
  intros x y. destruct (decide (b32 x = b32 y)) as [E|E].
  - left. apply b32_inj, E.
  - right. intros ->. apply E. reflexivity.
Defined.
Global Instance bytes32_countable : Countable bytes32 :=
  inj_countable b32 to_bytes32 to_bytes32_b32.

Notation key := bytes32 (only parsing).    (* KeyHash *)
Notation vhash := bytes32 (only parsing).  (* ValueHash *)
Notation hash := bytes32 (only parsing).   (* node / root hashes *)
(** src/lib.rs:152 OwnedValue = Vec<u8> *)
Notation value := (list byte) (only parsing).
(** src/types.rs:10 Version = u64, unbounded here *)
Notation version := N (only parsing).
(** src/types.rs:13 PRE_GENESIS_VERSION = u64::max_value() *)
Definition PRE_GENESIS_VERSION : version := 18446744073709551615.

(** ** Nibbles: src/types/nibble.rs:21-47.  [Nibble(u8)] with the invariant < 16
    asserted on construction; here four bits, most significant first. *)
Inductive nibble : Type := Nib (b3 b2 b1 b0 : bool).
Global Instance nibble_eq_dec : EqDecision nibble.
Proof. solve_decision. Defined.
(** u8::from(Nibble), Nibble::as_usize: nibble.rs:31-35, 43-47 *)
Definition nib_to_N (n : nibble) : N :=
  let '(Nib b3 b2 b1 b0) := n in
  (if b3 then 8 else 0) + (if b2 then 4 else 0) + (if b1 then 2 else 0) + (if b0 then 1 else 0).
(** Nibble::from(u8) on values < 16: nibble.rs:24-29 (the assertion is [nib_from_u8]) *)
Definition nib_of_N (n : N) : nibble :=
  Nib (N.testbit n 3) (N.testbit n 2) (N.testbit n 1) (N.testbit n 0).
Definition nib_from_u8 (n : N) : outcome nibble :=
  if n <? 16 then Ok (nib_of_N n) else Panic.
Lemma nib_of_to_N (n : nibble) : nib_of_N (nib_to_N n) = n.
Proof. destruct n as [[] [] [] []]; reflexivity. Qed.
Lemma nib_to_N_lt (n : nibble) : nib_to_N n < 16.
Proof. destruct n as [[] [] [] []]; reflexivity. Qed.
Lemma nib_to_N_inj (n m : nibble) : nib_to_N n = nib_to_N m -> n = m.
Proof. intros E. rewrite <- (nib_of_to_N n), <- (nib_of_to_N m), E. reflexivity. Qed.
Global Instance nibble_countable : Countable nibble :=
  inj_countable' nib_to_N nib_of_N nib_of_to_N.
(** derived Ord on Nibble: nibble.rs:20 *)
Definition nib_ltb (n m : nibble) : bool := nib_to_N n <? nib_to_N m.

(** The 16 nibbles in increasing order (array index order). *)
Definition all_nibbles : list nibble :=
  [ Nib false false false false; Nib false false false true;
    Nib false false true false;  Nib false false true true;
    Nib false true false false;  Nib false true false true;
    Nib false true true false;   Nib false true true true;
    Nib true false false false;  Nib true false false true;
    Nib true false true false;   Nib true false true true;
    Nib true true false false;   Nib true true false true;
    Nib true true true false;    Nib true true true true ].
Definition nib_bits (n : nibble) : list bool := let '(Nib b3 b2 b1 b0) := n in [b3; b2; b1; b0].

(** ** Keys as nibble and bit sequences: src/bytes32ext.rs *)
(** bytes32ext.rs:23-29 get_nibble / 42-47 nibble, for both nibbles of one byte:
    high nibble [b >> 4], low nibble [b & 0x0F]. *)
Definition byte_hi (b : byte) : nibble := nib_of_N (N.shiftr (Byte.to_N b) 4).
Definition byte_lo (b : byte) : nibble := nib_of_N (N.land (Byte.to_N b) 15).
Definition byte_nibbles (b : byte) : list nibble := [byte_hi b; byte_lo b].
Definition bytes_nibbles (l : list byte) : list nibble := flat_map byte_nibbles l.
(** The nibble sequence of a key, i.e. what NibblePath::new(key.0.to_vec()).nibbles()
    yields (proved in NibblePath.v). *)
Definition key_nibbles (k : key) : list nibble := bytes_nibbles (b32 k).
(** bytes32ext.rs:23-29 [get_nibble(index)] *)
Definition get_nibble (k : key) (index : nat) : outcome nibble :=
  b ← unwrap (b32 k !! (index / 2)%nat);
  Ok (if (index mod 2 =? 0)%nat then byte_hi b else byte_lo b).
(** bytes32ext.rs:84-91 get_bit for the eight indices inside one byte, most significant first:
    [(byte >> bit) & 1 != 0]. *)
Definition byte_bits (b : byte) : list bool :=
  map (fun bit => negb (N.land (N.shiftr (Byte.to_N b) bit) 1 =? 0)) [7;6;5;4;3;2;1;0].
(** bytes32ext.rs:38-40 iter_bits(), 94-104 next *)
Definition key_bits (k : key) : list bool := flat_map byte_bits (b32 k).
(** Length of the common prefix of two lists: zip + take_while(==) + count. *)
Fixpoint lcp {A} `{EqDecision A} (x y : list A) : nat :=
  match x, y with
  | a :: x', b :: y' => if decide (a = b) then S (lcp x' y') else O
  | _, _ => O
  end.
(** bytes32ext.rs:31-36 common_prefix_bits_len *)
Definition common_prefix_bits_len (x y : key) : nat := lcp (key_bits x) (key_bits y).
(** bytes32ext.rs:15-17 common_prefix_nibbles_len *)
Definition common_prefix_nibbles_len (x y : key) : nat := (common_prefix_bits_len x y / 4)%nat.

(** derived Ord on [u8; 32]: lexicographic on bytes (src/lib.rs:192-214). *)
Fixpoint bytes_compare (x y : list byte) : comparison :=
  match x, y with
  | [], [] => Eq
  | [], _ :: _ => Lt
  | _ :: _, [] => Gt
  | a :: x', b :: y' =>
      match N.compare (Byte.to_N a) (Byte.to_N b) with
      | Eq => bytes_compare x' y'
      | c => c
      end
  end.
Definition key_compare (x y : key) : comparison := bytes_compare (b32 x) (b32 y).
Definition key_ltb (x y : key) : bool :=
  match key_compare x y with Lt => true | _ => false end.

(** ** Hashing constants: src/types/proof.rs:23-24, src/lib.rs:149 *)
Definition LEAF_DOMAIN_SEPARATOR : list byte := list_byte_of_string "JMT::LeafNode".
Definition INTERNAL_DOMAIN_SEPARATOR : list byte := list_byte_of_string "JMT::IntrnalNode".
Definition placeholder_bytes : list byte :=
  list_byte_of_string "SPARSE_MERKLE_PLACEHOLDER_HASH__".
Definition SPARSE_MERKLE_PLACEHOLDER_HASH : hash := B32 placeholder_bytes eq_refl.

(** Hash inputs (the bytes fed to the hasher), src/types/proof.rs:74-81 and 150-156. *)
Definition leaf_input (k : key) (vh : vhash) : list byte :=
  LEAF_DOMAIN_SEPARATOR ++ b32 k ++ b32 vh.
Definition internal_input (l r : hash) : list byte :=
  INTERNAL_DOMAIN_SEPARATOR ++ b32 l ++ b32 r.

(** NodeKey: src/node_type.rs:51-56 (version, nibble_path); the path is the nibble sequence
    (packed byte representation: NibblePath.v). *)
Notation nodekey := (N * list nibble)%type (only parsing).
Definition nk_version (nk : nodekey) : version := fst nk.
Definition nk_path (nk : nodekey) : list nibble := snd nk.
(** node_type.rs:68-70 new_empty_path *)
Definition nk_root (v : version) : nodekey := (v, []).
(** node_type.rs:83-87 gen_child_node_key.  Simplification: NibblePath::push asserts
    fewer than 64 nibbles (nibble_path.rs:124); that panic on over-long paths is not modelled here. *)
Definition gen_child (nk : nodekey) (v : version) (n : nibble) : nodekey := (v, nk.2 ++ [n]).
(** node_type.rs:100-102 set_version *)
Definition nk_set_version (nk : nodekey) (v : version) : nodekey := (v, nk.2).
