(** Packed nibble paths and their iterators: src/types/nibble/nibble_path.rs, and the byte level
    of src/bytes32ext.rs.  The rest of the model uses plain nibble lists for paths; ThmNibble.v
    proves that the packed representation below behaves as those lists.

    mirai_annotations outside MIRAI: [checked_precondition!] is [assert!]; [precondition!] and
    [assume!] do nothing. *)
From Verif Require Import Base.
From Coq Require Import Lia.
Local Open Scope nat_scope.

(** types/nibble.rs:19 *)
Definition ROOT_NIBBLE_HEIGHT : nat := 64.

(** nibble_path.rs:31-41 *)
Record npath : Type := NP { np_num : nat; np_bytes : list byte }.

(** u8 operations used below: [b >> s], [b & m], [b | m], [n << 4]. *)
Definition u8_shr (b : byte) (s : N) : N := N.shiftr (Byte.to_N b) s.
Definition u8_and (b : byte) (m : N) : N := N.land (Byte.to_N b) m.

(** nibble_path.rs:101-105 new *)
Definition np_new (bytes : list byte) : outcome npath :=
  _ ← assert_ (length bytes <=? ROOT_NIBBLE_HEIGHT / 2);
  Ok (NP (length bytes * 2) bytes).
(** nibble_path.rs:111-120 new_odd *)
Definition np_new_odd (bytes : list byte) : outcome npath :=
  _ ← assert_ (length bytes <=? ROOT_NIBBLE_HEIGHT / 2);
  lb ← unwrap (last bytes);
  _ ← assert_ (u8_and lb 15 =? 0)%N;
  Ok (NP (length bytes * 2 - 1) bytes).
(** nibble_path.rs:123-131 push *)
Definition np_push (p : npath) (n : nibble) : outcome npath :=
  _ ← assert_ (np_num p <? ROOT_NIBBLE_HEIGHT);
  if np_num p mod 2 =? 0 then
    Ok (NP (np_num p + 1) (np_bytes p ++ [byte_of_N (N.shiftl (nib_to_N n) 4)]))
  else
    b ← unwrap (np_bytes p !! (np_num p / 2));
    Ok (NP (np_num p + 1) (<[np_num p / 2 := byte_of_N (N.lor (Byte.to_N b) (nib_to_N n))]> (np_bytes p))).
(** nibble_path.rs:134-148 pop: the popped nibble and the path afterwards.
    [num_nibbles -= 1] underflows (panics) when num_nibbles = 0. *)
Definition np_pop (p : npath) : outcome (option nibble * npath) :=
  if np_num p mod 2 =? 0 then
    match last (np_bytes p) with
    | Some b =>
        n ← nib_from_u8 (u8_and b 15);
        _ ← assert_ (1 <=? np_num p);
        Ok (Some n, NP (np_num p - 1) (<[length (np_bytes p) - 1 := byte_of_N (u8_and b 240)]> (np_bytes p)))
    | None => Ok (None, p)
    end
  else
    match last (np_bytes p) with
    | Some b =>
        n ← nib_from_u8 (u8_shr b 4);
        _ ← assert_ (1 <=? np_num p);
        Ok (Some n, NP (np_num p - 1) (take (length (np_bytes p) - 1) (np_bytes p)))
    | None => Ok (None, p)
    end.
(** nibble_path.rs:151-159 last *)
Definition np_last (p : npath) : outcome (option nibble) :=
  if np_num p mod 2 =? 0 then
    match last (np_bytes p) with
    | Some b => n ← nib_from_u8 (u8_and b 15); Ok (Some n)
    | None => Ok None
    end
  else
    b ← unwrap (last (np_bytes p));
    n ← nib_from_u8 (u8_shr b 4); Ok (Some n).
(** nibble_path.rs:162-167 get_bit *)
Definition np_get_bit (p : npath) (i : nat) : outcome bool :=
  _ ← assert_ (i <? np_num p * 4);
  b ← unwrap (np_bytes p !! (i / 8));
  Ok (negb (N.land (u8_shr b (N.of_nat (7 - i mod 8)%nat)) 1 =? 0)%N).
(** nibble_path.rs:170-173 get_nibble *)
Definition np_get_nibble (p : npath) (i : nat) : outcome nibble :=
  _ ← assert_ (i <? np_num p);
  b ← unwrap (np_bytes p !! (i / 2));
  nib_from_u8 (N.land (u8_shr b (if (i mod 2 =? 1)%nat then 0 else 4)) 15)%N.
(** nibble_path.rs:191-198 num_nibbles, is_empty *)
Definition np_is_empty (p : npath) : bool := np_num p =? 0.

(** [FromIterator<Nibble>]: nibble_path.rs:52-60 *)
Fixpoint np_push_all (p : npath) (l : list nibble) : outcome npath :=
  match l with
  | [] => Ok p
  | n :: l' => p' ← np_push p n; np_push_all p' l'
  end.
Definition np_collect (l : list nibble) : outcome npath := p ← np_new []; np_push_all p l.

(** derived [Ord]: nibble_path.rs:19-24: num_nibbles, then the bytes *)
Definition np_compare (p q : npath) : comparison :=
  match Nat.compare (np_num p) (np_num q) with
  | Eq => bytes_compare (np_bytes p) (np_bytes q)
  | c => c
  end.

(** BitIterator: nibble_path.rs:211-215.  The borrowed path and the [Range<usize>] of positions. *)
Record bit_iter : Type := BI { bi_path : npath; bi_pos : nat; bi_end : nat }.
(** nibble_path.rs:176-182 bits *)
Definition np_bits (p : npath) : bit_iter := BI p 0 (np_num p * 4).
(** nibble_path.rs:217-226 peek *)
Definition bi_peek (it : bit_iter) : outcome (option bool) :=
  if bi_pos it <? bi_end it then b ← np_get_bit (bi_path it) (bi_pos it); Ok (Some b) else Ok None.
(** nibble_path.rs:229-234 next *)
Definition bi_next (it : bit_iter) : outcome (option bool * bit_iter) :=
  if bi_pos it <? bi_end it then
    b ← np_get_bit (bi_path it) (bi_pos it);
    Ok (Some b, BI (bi_path it) (bi_pos it + 1) (bi_end it))
  else Ok (None, it).
(** nibble_path.rs:237-241 next_back *)
Definition bi_next_back (it : bit_iter) : outcome (option bool * bit_iter) :=
  if bi_pos it <? bi_end it then
    b ← np_get_bit (bi_path it) (bi_end it - 1);
    Ok (Some b, BI (bi_path it) (bi_pos it) (bi_end it - 1))
  else Ok (None, it).

(** NibbleIterator: nibble_path.rs:244-260 *)
Record nib_iter : Type := NI { ni_path : npath; ni_pos : nat; ni_end : nat; ni_start : nat }.
(** nibble_path.rs:282-291 new *)
Definition ni_new (p : npath) (start end_ : nat) : nib_iter := NI p start end_ start.
(** nibble_path.rs:185-188 nibbles *)
Definition np_nibbles (p : npath) : nib_iter := ni_new p 0 (np_num p).
(** nibble_path.rs:263-268 next *)
Definition ni_next (it : nib_iter) : outcome (option nibble * nib_iter) :=
  if ni_pos it <? ni_end it then
    n ← np_get_nibble (ni_path it) (ni_pos it);
    Ok (Some n, NI (ni_path it) (ni_pos it + 1) (ni_end it) (ni_start it))
  else Ok (None, it).
(** nibble_path.rs:270-279 peek *)
Definition ni_peek (it : nib_iter) : outcome (option nibble) :=
  if ni_pos it <? ni_end it then n ← np_get_nibble (ni_path it) (ni_pos it); Ok (Some n) else Ok None.
(** nibble_path.rs:294-298 visited_nibbles *)
Definition ni_visited (it : nib_iter) : nib_iter := ni_new (ni_path it) (ni_start it) (ni_pos it).
(** nibble_path.rs:301-305 remaining_nibbles *)
Definition ni_remaining (it : nib_iter) : nib_iter := ni_new (ni_path it) (ni_pos it) (ni_end it).
(** nibble_path.rs:308-315 bits *)
Definition ni_bits (it : nib_iter) : bit_iter := BI (ni_path it) (ni_pos it * 4) (ni_end it * 4).
(** nibble_path.rs:326-329 num_nibbles *)
Definition ni_num (it : nib_iter) : outcome nat :=
  _ ← assert_ (ni_start it <=? ni_end it); Ok (ni_end it - ni_start it).
(** nibble_path.rs:332-334 is_finished *)
Definition ni_is_finished (it : nib_iter) : outcome bool :=
  o ← ni_peek it; Ok (match o with None => true | Some _ => false end).

(** Draining an iterator (a [for] loop, [collect], [chain]); the loop runs once per remaining
    position, so [end - pos + 1] rounds suffice ([rounds] below is that number). *)
Fixpoint ni_drain_loop (rounds : nat) (it : nib_iter) : outcome (list nibble) :=
  match rounds with
  | O => Panic
  | Datatypes.S r =>
      o ← ni_next it;
      match o.1 with None => Ok [] | Some n => l ← ni_drain_loop r o.2; Ok (n :: l) end
  end.
Definition ni_drain (it : nib_iter) : outcome (list nibble) := ni_drain_loop (ni_end it - ni_pos it + 1) it.
Fixpoint bi_drain_loop (next : bit_iter -> outcome (option bool * bit_iter)) (rounds : nat) (it : bit_iter) : outcome (list bool) :=
  match rounds with
  | O => Panic
  | Datatypes.S r =>
      o ← next it;
      match o.1 with None => Ok [] | Some b => l ← bi_drain_loop next r o.2; Ok (b :: l) end
  end.
Definition bi_drain (it : bit_iter) : outcome (list bool) := bi_drain_loop bi_next (bi_end it - bi_pos it + 1) it.
Definition bi_drain_back (it : bit_iter) : outcome (list bool) := bi_drain_loop bi_next_back (bi_end it - bi_pos it + 1) it.

(** nibble_path.rs:319-323 get_nibble_path *)
Definition ni_get_nibble_path (it : nib_iter) : outcome npath :=
  a ← ni_drain (ni_visited it);
  b ← ni_drain (ni_remaining it);
  np_collect (a ++ b).

(** nibble_path.rs:339-360 skip_common_prefix, for two nibble iterators: the count and both
    iterators afterwards.  One loop round per nibble left in [x]. *)
Fixpoint skip_loop (rounds : nat) (x y : nib_iter) (count : nat) : outcome (nat * nib_iter * nib_iter) :=
  match rounds with
  | O => Panic
  | Datatypes.S r =>
      px ← ni_peek x;
      py ← ni_peek y;
      match px, py with
      | Some a, Some b =>
          if bool_decide (a = b) then
            ox ← ni_next x;
            oy ← ni_next y;
            skip_loop r ox.2 oy.2 (count + 1)
          else Ok (count, x, y)
      | _, _ => Ok (count, x, y)
      end
  end.
Definition skip_common_prefix (x y : nib_iter) : outcome (nat * nib_iter * nib_iter) :=
  skip_loop (ni_end x - ni_pos x + 1) x y 0.

(** bytes32ext.rs:42-47 nibble: [(self[pos] >> shift) & 0x0f] as a u8 *)
Definition b32_nibble (k : key) (index : nat) : outcome N :=
  b ← unwrap (b32 k !! (index / 2));
  Ok (N.land (u8_shr b (if (index mod 2 =? 0)%nat then 4 else 0)) 15)%N.
(** bytes32ext.rs:50-62 from_bit_iter: the loop over (i, bit) *)
Fixpoint fbi_loop (i : nat) (l : list bool) (buf : list byte) : outcome (list byte) :=
  match l with
  | [] => Ok buf
  | b :: l' =>
      if b then
        x ← unwrap (buf !! (i / 8));
        fbi_loop (i + 1) l' (<[i / 8 := byte_of_N (N.lor (Byte.to_N x) (N.shiftl 1 (N.of_nat (7 - i mod 8)%nat)))]> buf)
      else fbi_loop (i + 1) l' buf
  end.
Definition from_bit_iter (l : list bool) : outcome (option bytes32) :=
  if length l =? 256 then buf ← fbi_loop 0 l (repeat x00 32); Ok (to_bytes32 buf) else Ok None.
(** bytes32ext.rs:84-91 HashValueBitIterator::get_bit *)
Definition hv_get_bit (k : key) (index : nat) : outcome bool :=
  b ← unwrap (b32 k !! (index / 8));
  Ok (negb (N.land (u8_shr b (N.of_nat (7 - index mod 8)%nat)) 1 =? 0)%N).
(** bytes32ext.rs:66-91 HashValueBitIterator: the borrowed bytes and the [Range<usize>] of positions; 75-80 new; 94-100 next, 107-110 next_back; 102-104 size_hint (= len(), exact) *)
Record hv_iter : Type := HV { hv_key : key; hv_pos : nat; hv_end : nat }.
Definition hv_new (k : key) : hv_iter := HV k 0 (32 * 8).
Definition hv_next (it : hv_iter) : outcome (option bool * hv_iter) :=
  if hv_pos it <? hv_end it then b ← hv_get_bit (hv_key it) (hv_pos it); Ok (Some b, HV (hv_key it) (hv_pos it + 1) (hv_end it)) else Ok (None, it).
Definition hv_next_back (it : hv_iter) : outcome (option bool * hv_iter) :=
  if hv_pos it <? hv_end it then b ← hv_get_bit (hv_key it) (hv_end it - 1); Ok (Some b, HV (hv_key it) (hv_pos it) (hv_end it - 1)) else Ok (None, it).
Definition hv_len (it : hv_iter) : nat := hv_end it - hv_pos it.
