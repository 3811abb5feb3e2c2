(** SHA-256 (FIPS 180-4), and the hasher of the same name in pieces: the `sha2` crate behind `impl SimpleHasher for Sha256` (src/lib.rs:327-344) and `Sha256Jmt` (src/tree.rs:34-36).
    The crate is external; it is modelled from the standard, its buffering from the documentation of `digest` (complete blocks are compressed as they arrive, the rest is kept). *)
From Verif Require Import Base Hasher Codec.
Local Open Scope N_scope.

(** ** FIPS 180-4: words of 32 bits *)
Definition mask32 : N := 4294967295.
Definition add32 (a b : N) : N := N.land (a + b) mask32.
Definition rotr (n x : N) : N := N.lor (N.shiftr x n) (N.land (N.shiftl x (32 - n)) mask32).
Definition not32 (x : N) : N := N.lxor x mask32.
(** 4.1.2 *)
Definition Ch (x y z : N) : N := N.lxor (N.land x y) (N.land (not32 x) z).
Definition Maj (x y z : N) : N := N.lxor (N.lxor (N.land x y) (N.land x z)) (N.land y z).
Definition big0 (x : N) : N := N.lxor (N.lxor (rotr 2 x) (rotr 13 x)) (rotr 22 x).
Definition big1 (x : N) : N := N.lxor (N.lxor (rotr 6 x) (rotr 11 x)) (rotr 25 x).
Definition small0 (x : N) : N := N.lxor (N.lxor (rotr 7 x) (rotr 18 x)) (N.shiftr x 3).
Definition small1 (x : N) : N := N.lxor (N.lxor (rotr 17 x) (rotr 19 x)) (N.shiftr x 10).
(** 4.2.2 *)
Definition constants : list N := [
  0x428a2f98; 0x71374491; 0xb5c0fbcf; 0xe9b5dba5; 0x3956c25b; 0x59f111f1; 0x923f82a4; 0xab1c5ed5;
  0xd807aa98; 0x12835b01; 0x243185be; 0x550c7dc3; 0x72be5d74; 0x80deb1fe; 0x9bdc06a7; 0xc19bf174;
  0xe49b69c1; 0xefbe4786; 0x0fc19dc6; 0x240ca1cc; 0x2de92c6f; 0x4a7484aa; 0x5cb0a9dc; 0x76f988da;
  0x983e5152; 0xa831c66d; 0xb00327c8; 0xbf597fc7; 0xc6e00bf3; 0xd5a79147; 0x06ca6351; 0x14292967;
  0x27b70a85; 0x2e1b2138; 0x4d2c6dfc; 0x53380d13; 0x650a7354; 0x766a0abb; 0x81c2c92e; 0x92722c85;
  0xa2bfe8a1; 0xa81a664b; 0xc24b8b70; 0xc76c51a3; 0xd192e819; 0xd6990624; 0xf40e3585; 0x106aa070;
  0x19a4c116; 0x1e376c08; 0x2748774c; 0x34b0bcb5; 0x391c0cb3; 0x4ed8aa4a; 0x5b9cca4f; 0x682e6ff3;
  0x748f82ee; 0x78a5636f; 0x84c87814; 0x8cc70208; 0x90befffa; 0xa4506ceb; 0xbef9a3f7; 0xc67178f2].
(** 5.3.3 *)
Definition initial : list N := [0x6a09e667; 0xbb67ae85; 0x3c6ef372; 0xa54ff53a; 0x510e527f; 0x9b05688c; 0x1f83d9ab; 0x5be0cd19].
(** 5.2.1: a block of 64 bytes as 16 words *)
Fixpoint words (l : list byte) : list N :=
  match l with
  | a :: b :: c :: d :: l' => N.lor (N.lor (N.shiftl (Byte.to_N a) 24) (N.shiftl (Byte.to_N b) 16)) (N.lor (N.shiftl (Byte.to_N c) 8) (Byte.to_N d)) :: words l'
  | _ => []
  end.
Definition word_bytes (w : N) : list byte := map (fun s => byte_of_N (N.land (N.shiftr w s) 255)) [24; 16; 8; 0].
(** 6.2.2: the rounds; [w] holds the next 16 words of the message schedule *)
Definition next_word (w : list N) : N := add32 (add32 (small1 (nth 14 w 0)) (nth 9 w 0)) (add32 (small0 (nth 1 w 0)) (nth 0 w 0)).
Definition one_round (s : list N) (k w : N) : list N :=
  match s with
  | [a; b; c; d; e; f; g; h] =>
      let t1 := add32 (add32 (add32 h (big1 e)) (add32 (Ch e f g) k)) w in
      let t2 := add32 (big0 a) (Maj a b c) in
      [add32 t1 t2; a; b; c; add32 d t1; e; f; g]
  | _ => s
  end.
Fixpoint rounds (ks : list N) (w s : list N) : list N :=
  match ks with
  | [] => s
  | k :: ks' => rounds ks' (tail w ++ [next_word w]) (one_round s k (hd 0 w))
  end.
Definition compress (s : list N) (block : list byte) : list N := zip_with add32 s (rounds constants (words block) s).
(** 5.1.1: a 1 bit, zeros, the length in bits in 8 bytes *)
Definition padding (n : nat) : list byte :=
  x80 :: repeat x00 ((119 - n mod 64) mod 64)%nat ++ rev (le_bytes 8 (8 * N.of_nat n)).

(** 6.2: the complete blocks at the front of [l] one after the other, and what is left over; [f]: at least the number of blocks *)
Fixpoint absorb (f : nat) (s : list N) (l : list byte) : list N * list byte :=
  match f with
  | O => (s, l)
  | S f => if (64 <=? length l)%nat then absorb f (compress s (take 64 l)) (drop 64 l) else (s, l)
  end.
Definition zero32 : bytes32 := B32 (repeat x00 32) eq_refl.
Definition digest_of (s : list N) : bytes32 := default zero32 (to_bytes32 (flat_map word_bytes s)).
Definition sha256 (l : list byte) : bytes32 := let m := l ++ padding (length l) in digest_of (absorb (length m) initial m).1.

(** ** In pieces: the state, the incomplete block, the number of bytes so far *)
Record sha_state : Type := ShaState { ss_words : list N; ss_buffer : list byte; ss_count : nat }.
Definition sha_update (s : sha_state) (data : list byte) : sha_state :=
  let l := ss_buffer s ++ data in let '(w, r) := absorb (length l) (ss_words s) l in ShaState w r (ss_count s + length data).
Definition sha_finalize (s : sha_state) : bytes32 := let l := ss_buffer s ++ padding (ss_count s) in digest_of (absorb (length l) (ss_words s) l).1.
Definition sha_hasher : hasher sha_state := Hasher (ShaState initial [] 0) sha_update sha_finalize.
