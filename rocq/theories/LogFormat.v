(** The Debug formats of keys, hashes and paths, as they appear in logs and error messages: src/lib.rs and src/types/nibble/nibble_path.rs.  Text is a list of (ASCII) bytes. *)
From Coq Require Import Strings.String.
From Verif Require Import Base.
Local Open Scope N_scope.

(** [{:x}] of a number below 16 (lower case) *)
Definition hex_digit (n : N) : byte := byte_of_N (if n <? 10 then 48 + n else 87 + n).
(** [{:02x}] of a u8 *)
Definition hex2 (b : byte) : list byte := [hex_digit (N.shiftr (Byte.to_N b) 4); hex_digit (N.land (Byte.to_N b) 15)].
(** hex::encode *)
Definition hex_encode (l : list byte) : list byte := flat_map hex2 l.
(** src/lib.rs:285-304: one round of the loop; as_str "\n" is the two characters backslash, n *)
Definition escape_byte (b : byte) : list byte :=
  let n := Byte.to_N b in
  if n =? 10 then [x5c; x6e] (* \n *)
  else if n =? 13 then [x5c; x72] (* \r *)
  else if n =? 9 then [x5c; x74] (* \t *)
  else if (n =? 92) || (n =? 34) then [x5c; b] (* \\ and the quote *)
  else if n =? 0 then [x5c; x30] (* \0 *)
  else if (32 <=? n) && (n <? 127) then [b]
  else [x5c; x78] ++ hex2 b. (* \xhh *)
(** src/lib.rs:281-308 Debug of EscapedByteSlice: how KeyHash::with (248-255) logs the key *)
Definition escaped_bytes (l : list byte) : list byte := [x62; x22] ++ flat_map escape_byte l ++ [x22].
(** src/lib.rs:257-279 Debug of KeyHash, ValueHash, RootHash ([{:?}]): debug_tuple prints the name, and in parentheses the hex string in quotes *)
Definition debug_hash (name : string) (h : bytes32) : list byte := list_byte_of_string name ++ [x28; x22] ++ hex_encode (b32 h) ++ [x22; x29].
(** src/types/nibble/nibble_path.rs:45-49 Debug of NibblePath; src/types/nibble.rs:37-41 LowerHex of Nibble *)
Definition debug_path (p : list nibble) : list byte := map (fun n => hex_digit (nib_to_N n)) p.
