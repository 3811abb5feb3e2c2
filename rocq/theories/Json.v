(** The JSON form of the types of /repo: the derived serde implementations (Serialize, Deserialize), and the text that serde_json (external; Cargo.toml:47, used by the tests
    proof/definition.rs:736-765) writes and reads for them.  serde and serde_json are modelled from their documentation, as borsh is.
    Simplifications: [from_str] is given the bytes of a &str, UTF-8 is not checked; an escaped surrogate without its other half is rejected (serde_json accepts it
    in a string that it skips: that is, in unknown fields only); a number with a sign, a fraction or an exponent is [JOther], whatever its value.  [usize] is 64 bits. *)
From Coq Require Import Strings.String Decimal DecimalN.
From Verif Require Import Base NodeType ProofDef NibblePath ChildrenArr Borsh.
Local Open Scope N_scope.

(** JSON values: objects as the list of their members, in order and with repetitions *)
Inductive json : Type := JNull | JBool (b : bool) | JNum (n : N) | JOther | JStr (s : list byte) | JArr (l : list json) | JObj (l : list (list byte * json)).

(** ** Writing: serde_json::to_string (compact).  The strings written here are names of fields and variants, without characters to escape. *)
Fixpoint uint_bytes (d : Decimal.uint) : list byte :=
  match d with
  | Nil => [] | D0 d => x30 :: uint_bytes d | D1 d => x31 :: uint_bytes d | D2 d => x32 :: uint_bytes d | D3 d => x33 :: uint_bytes d | D4 d => x34 :: uint_bytes d
  | D5 d => x35 :: uint_bytes d | D6 d => x36 :: uint_bytes d | D7 d => x37 :: uint_bytes d | D8 d => x38 :: uint_bytes d | D9 d => x39 :: uint_bytes d
  end.
Definition txt (s : string) : list byte := list_byte_of_string s.
Definition quoted (s : list byte) : list byte := x22 :: s ++ [x22].
Fixpoint json_text (j : json) : list byte :=
  match j with
  | JNull => txt "null" | JBool true => txt "true" | JBool false => txt "false"
  | JNum n => uint_bytes (N.to_uint n)
  | JOther => txt "0.0"
  | JStr s => quoted s
  | JArr l => x5b :: (fix go l := match l with [] => [] | [x] => json_text x | x :: l' => json_text x ++ x2c :: go l' end) l ++ [x5d]
  | JObj l => x7b :: (fix go l := match l with [] => [] | [(k, x)] => quoted k ++ x3a :: json_text x | (k, x) :: l' => quoted k ++ x3a :: json_text x ++ x2c :: go l' end) l ++ [x7d]
  end.

(** ** Reading: serde_json::from_str *)
Definition is_ws (b : byte) : bool := match b with x20 | x0a | x0d | x09 => true | _ => false end.
Fixpoint skip_ws (l : list byte) : list byte := match l with b :: r => if is_ws b then skip_ws r else l | [] => [] end.
Definition digit_of (b : byte) : option (Decimal.uint -> Decimal.uint) :=
  match b with
  | x30 => Some D0 | x31 => Some D1 | x32 => Some D2 | x33 => Some D3 | x34 => Some D4 | x35 => Some D5 | x36 => Some D6 | x37 => Some D7 | x38 => Some D8 | x39 => Some D9
  | _ => None
  end.
Fixpoint read_digits (l : list byte) : Decimal.uint * list byte :=
  match l with
  | b :: r => match digit_of b with Some D => let '(d, r') := read_digits r in (D d, r') | None => (Nil, l) end
  | [] => (Nil, [])
  end.
(** an integer part: at least one digit, no superfluous zero *)
Definition int_part (d : Decimal.uint) : bool := match d with Nil => false | D0 Nil => true | D0 _ => false | _ => true end.
Definition some_digits (d : Decimal.uint) : bool := match d with Nil => false | _ => true end.
Definition is (c b : byte) : bool := Byte.eqb b c.
(** the rest after the character [c], if that is the next *)
Definition eat (c : byte) (l : list byte) : option (list byte) := match l with b :: r => if is c b then Some r else None | [] => None end.
Definition read_num (l : list byte) : option (json * list byte) :=
  let '(neg, l) := match eat x2d l with Some r => (true, r) | None => (false, l) end in
  let '(d, l) := read_digits l in
  if negb (int_part d) then None else
  '(frac, l) ← (match eat x2e l with Some r => let '(d1, r1) := read_digits r in if some_digits d1 then Some (true, r1) else None | None => Some (false, l) end);
  '(exp, l) ← (match (match eat x65 l with Some r => Some r | None => eat x45 l end) with
    | Some r => let r := match eat x2b r with Some r' => r' | None => default r (eat x2d r) end in let '(d1, r1) := read_digits r in if some_digits d1 then Some (true, r1) else None
    | None => Some (false, l) end);
  Some (if neg || frac || exp then JOther else JNum (N.of_uint d), l).
Definition hex_val (b : byte) : option N :=
  let n := Byte.to_N b in
  if (48 <=? n) && (n <? 58) then Some (n - 48) else if (97 <=? n) && (n <? 103) then Some (n - 87) else if (65 <=? n) && (n <? 71) then Some (n - 55) else None.
Definition hex4 (a b c d : byte) : option N := a ← hex_val a; b ← hex_val b; c ← hex_val c; d ← hex_val d; Some (((a * 16 + b) * 16 + c) * 16 + d).
Definition in_range (lo hi n : N) : bool := (lo <=? n) && (n <? hi).
(** the UTF-8 form of a code point *)
Definition utf8 (n : N) : list byte :=
  let low k := byte_of_N (0x80 + N.land (N.shiftr n k) 0x3f) in
  if n <? 0x80 then [byte_of_N n]
  else if n <? 0x800 then [byte_of_N (0xc0 + N.shiftr n 6); low 0]
  else if n <? 0x10000 then [byte_of_N (0xe0 + N.shiftr n 12); low 6; low 0]
  else [byte_of_N (0xf0 + N.shiftr n 18); low 12; low 6; low 0].
(** the rest of a string, after the opening quote *)
Definition unescape (e : byte) : option byte :=
  match e with x22 => Some x22 | x5c => Some x5c | x2f => Some x2f | x62 => Some x08 | x66 => Some x0c | x6e => Some x0a | x72 => Some x0d | x74 => Some x09 | _ => None end.
Fixpoint read_str (l : list byte) : option (list byte * list byte) :=
  match l with
  | [] => None
  | b :: r =>
      if is x22 b then Some ([], r)
      else if is x5c b then
        match r with
        | [] => None
        | e :: r1 =>
            if is x75 e then
              match r1 with
              | a :: b :: c :: d :: r2 =>
                  n ← hex4 a b c d;
                  if in_range 0xd800 0xdc00 n then
                    match r2 with
                    | x5c :: x75 :: a :: b :: c :: d :: r3 =>
                        m ← hex4 a b c d;
                        if in_range 0xdc00 0xe000 m then '(s, r') ← read_str r3; Some (utf8 (0x10000 + 0x400 * (n - 0xd800) + (m - 0xdc00)) ++ s, r') else None
                    | _ => None
                    end
                  else if in_range 0xdc00 0xe000 n then None else '(s, r') ← read_str r2; Some (utf8 n ++ s, r')
              | _ => None
              end
            else e ← unescape e; '(s, r') ← read_str r1; Some (e :: s, r')
        end
      else if Byte.to_N b <? 32 then None else '(s, r') ← read_str r; Some (b :: s, r')
  end.
Definition read_word (w : string) (j : json) (l : list byte) : option (json * list byte) :=
  if bool_decide (take (length (txt w)) l = txt w) then Some (j, drop (length (txt w)) l) else None.
(** one value, the members of an array, the members of an object; white space before a value is skipped.  [f] bounds the recursion; the length of the text is enough. *)
Fixpoint read_value (f : nat) (l : list byte) {struct f} : option (json * list byte) :=
  match f with
  | O => None
  | S f =>
      match skip_ws l with
      | [] => None
      | b :: r =>
          if is x6e b then read_word "null" JNull (b :: r)
          else if is x74 b then read_word "true" (JBool true) (b :: r)
          else if is x66 b then read_word "false" (JBool false) (b :: r)
          else if is x22 b then '(s, r) ← read_str r; Some (JStr s, r)
          else if is x5b b then match eat x5d (skip_ws r) with Some r' => Some (JArr [], r') | None => '(xs, r) ← read_items f r; Some (JArr xs, r) end
          else if is x7b b then match eat x7d (skip_ws r) with Some r' => Some (JObj [], r') | None => '(xs, r) ← read_members f r; Some (JObj xs, r) end
          else read_num (b :: r)
      end
  end
with read_items (f : nat) (l : list byte) {struct f} : option (list json * list byte) :=
  match f with
  | O => None
  | S f =>
      '(x, r) ← read_value f l;
      match eat x2c (skip_ws r), eat x5d (skip_ws r) with
      | Some r, _ => '(xs, r) ← read_items f r; Some (x :: xs, r)
      | None, Some r => Some ([x], r)
      | None, None => None
      end
  end
with read_members (f : nat) (l : list byte) {struct f} : option (list (list byte * json) * list byte) :=
  match f with
  | O => None
  | S f =>
      r ← eat x22 (skip_ws l); '(k, r) ← read_str r; r ← eat x3a (skip_ws r); '(x, r) ← read_value f r;
      match eat x2c (skip_ws r), eat x7d (skip_ws r) with
      | Some r, _ => '(xs, r) ← read_members f r; Some ((k, x) :: xs, r)
      | None, Some r => Some ([(k, x)], r)
      | None, None => None
      end
  end.
Definition read_text (l : list byte) : option json := '(j, r) ← read_value (S (length l)) l; match skip_ws r with [] => Some j | _ => None end.

(** ** The derived implementations *)
Record jcodec (A : Type) : Type := JCodec { j_to : A -> json; j_of : json -> option A }.
Arguments JCodec {A}. Arguments j_to {A}. Arguments j_of {A}.
Definition to_text {A} (c : jcodec A) (x : A) : list byte := json_text (j_to c x).
Definition of_text {A} (c : jcodec A) (l : list byte) : option A := j ← read_text l; j_of c j.

(** unsigned integers below a bound *)
Definition j_uint (bound : N) : jcodec N := JCodec JNum (fun j => match j with JNum n => if n <? bound then Some n else None | _ => None end).
Definition j_u64 : jcodec N := j_uint (2 ^ 64).
Definition j_usize : jcodec nat := JCodec (fun n => JNum (N.of_nat n)) (fun j => n ← j_of j_u64 j; Some (N.to_nat n)).
Definition j_u8 : jcodec byte := JCodec (fun b => JNum (Byte.to_N b)) (fun j => n ← j_of (j_uint 256) j; Some (byte_of_N n)).
(** Vec<T>: any length; [T; n]: exactly [n] *)
Definition j_vec {A} (c : jcodec A) : jcodec (list A) := JCodec (fun l => JArr (map (j_to c) l)) (fun j => match j with JArr l => mapM (j_of c) l | _ => None end).
Definition j_array {A} (n : nat) (c : jcodec A) : jcodec (list A) :=
  JCodec (j_to (j_vec c)) (fun j => match j with JArr l => if (length l =? n)%nat then mapM (j_of c) l else None | _ => None end).
(** Option<T>: null or the value *)
Definition j_option {A} (c : jcodec A) : jcodec (option A) := JCodec (fun o => match o with None => JNull | Some x => j_to c x end) (fun j => match j with JNull => Some None | _ => x ← j_of c j; Some (Some x) end).
(** PhantomData: a unit struct *)
Definition j_phantom : jcodec unit := JCodec (fun _ => JNull) (fun j => match j with JNull => Some () | _ => None end).
(** A struct: an object (unknown members are ignored, a known one must not be repeated; [None] stands for a missing one) or the array of its fields. *)
Definition member (name : string) (l : list (list byte * json)) : option (option json) :=
  match filter (fun kx => kx.1 = txt name) l with [] => Some None | [kx] => Some (Some kx.2) | _ => None end.
Definition j_fields (names : list string) (j : json) : option (list (option json)) :=
  match j with
  | JObj l => mapM (fun n => member n l) names
  | JArr l => if (length l =? length names)%nat then Some (map Some l) else None
  | _ => None
  end.
Definition obj (l : list (string * json)) : json := JObj (map (fun kx => (txt kx.1, kx.2)) l).
(** a field that must be there, and one of type Option, which is None when missing *)
Definition required {A} (c : jcodec A) (o : option json) : option A := j ← o; j_of c j.
Definition optional {A} (c : jcodec A) (o : option json) : option (option A) := match o with None => Some None | Some j => j_of (j_option c) j end.
Definition j_struct2 {A B} (a b : string) (ca : jcodec A) (cb : jcodec B) : jcodec (A * B) :=
  JCodec (fun x => obj [(a, j_to ca x.1); (b, j_to cb x.2)])
    (fun j => l ← j_fields [a; b] j; match l with [ja; jb] => x ← required ca ja; y ← required cb jb; Some (x, y) | _ => None end).
Definition j_conv {A B} (f : A -> option B) (g : B -> A) (c : jcodec A) : jcodec B := JCodec (fun y => j_to c (g y)) (fun j => x ← j_of c j; f x).
(** An enum: the name of a unit variant, or an object whose only member is the variant with its contents (null for a unit variant). *)
Definition j_variant (j : json) : option (list byte * option json) := match j with JStr s => Some (s, None) | JObj [(k, x)] => Some (k, Some x) | _ => None end.
Definition unit_payload (p : option json) : bool := match p with None | Some JNull => true | _ => false end.

(** lib.rs:158-233 RootHash, KeyHash, ValueHash: newtype structs over [u8; 32] *)
Definition j_b32 : jcodec bytes32 := j_conv to_bytes32 b32 (j_array 32 j_u8).
(** types/nibble.rs:21-22 Nibble: a newtype struct over u8; the bound of its constructor is not checked *)
Definition j_nibble : jcodec byte := j_u8.
(** types/proof.rs:84-88 SparseMerkleLeafNode, node_type.rs:820-836 LeafNode *)
Definition j_leaf : jcodec leaf_node := j_conv (fun x => Some (LeafNode x.1 x.2)) (fun l => (ln_key l, ln_vh l)) (j_struct2 "key_hash" "value_hash" j_b32 j_b32).
(** types/proof.rs:56-64 SparseMerkleInternalNode *)
Definition j_sminternal : jcodec (bytes32 * bytes32) := j_struct2 "left_child" "right_child" j_b32 j_b32.
(** types/proof.rs:26-47 SparseMerkleNode *)
Definition j_smnode : jcodec smnode := JCodec
  (fun n => match n with SMNull => JStr (txt "Null") | SMInternal l r => obj [("Internal"%string, j_to j_sminternal (l, r))] | SMLeaf l => obj [("Leaf"%string, j_to j_leaf l)] end)
  (fun j => '(k, p) ← j_variant j;
    if bool_decide (k = txt "Null") then (if unit_payload p then Some SMNull else None)
    else if bool_decide (k = txt "Internal") then (x ← required j_sminternal p; Some (SMInternal x.1 x.2))
    else if bool_decide (k = txt "Leaf") then (x ← required j_leaf p; Some (SMLeaf x)) else None).
(** types/proof/definition.rs:19-40 SparseMerkleProof *)
Definition j_proof : jcodec sm_proof := JCodec
  (fun p => obj [("leaf"%string, j_to (j_option j_leaf) (p_leaf p)); ("siblings"%string, j_to (j_vec j_smnode) (p_siblings p)); ("phantom_hasher"%string, j_to j_phantom ())])
  (fun j => l ← j_fields ["leaf"; "siblings"; "phantom_hasher"]%string j;
    match l with [jl; js; jp] => lf ← optional j_leaf jl; sibs ← required (j_vec j_smnode) js; _ ← required j_phantom jp; Some (SMProof lf sibs) | _ => None end).
(** types/proof/definition.rs:514-517 UpdateMerkleProof: a newtype struct *)
Definition j_update_proof : jcodec (list sm_proof) := j_vec j_proof.
(** types/proof/definition.rs:596-602 SparseMerkleRangeProof *)
Definition j_range_proof : jcodec range_proof :=
  j_conv (fun x => Some (RangeProof x.1)) (fun p => (right_siblings p, ())) (j_struct2 "right_siblings" "_phantom" (j_vec j_smnode) j_phantom).
(** types/nibble/nibble_path.rs:19-38 NibblePath *)
Definition j_npath : jcodec npath := j_conv (fun x => Some (NP x.1 x.2)) (fun p => (np_num p, np_bytes p)) (j_struct2 "num_nibbles" "bytes" j_usize (j_vec j_u8)).
(** node_type.rs:36-56 NodeKey *)
Definition j_nodekey : jcodec (N * npath) := j_struct2 "version" "nibble_path" j_u64 j_npath.
(** node_type.rs:105-118 NodeType: a unit variant and a struct variant *)
Definition j_node_type : jcodec node_type := JCodec
  (fun t => match t with NTLeaf => JStr (txt "Leaf") | NTInternal n => obj [("Internal"%string, obj [("leaf_count"%string, j_to j_usize n)])] end)
  (fun j => '(k, p) ← j_variant j;
    if bool_decide (k = txt "Leaf") then (if unit_payload p then Some NTLeaf else None)
    else if bool_decide (k = txt "Internal") then (x ← p; l ← j_fields ["leaf_count"%string] x; match l with [jn] => n ← required j_usize jn; Some (NTInternal n) | _ => None end) else None).
(** node_type.rs:135-156 Child *)
Definition j_child : jcodec child := JCodec
  (fun c => obj [("hash"%string, j_to j_b32 (c_hash c)); ("version"%string, j_to j_u64 (c_version c)); ("node_type"%string, j_to j_node_type (c_type c))])
  (fun j => l ← j_fields ["hash"; "version"; "node_type"]%string j;
    match l with [jh; jv; jt] => h ← required j_b32 jh; v ← required j_u64 jv; t ← required j_node_type jt; Some (Child h v t) | _ => None end).
(** node_type.rs:181-197 Children: the boxed array of 16 slots and the number of children *)
Definition j_children : jcodec carr := j_conv (fun x => Some (CArr x.1 x.2)) (fun a => (ca_slots a, ca_num a)) (j_struct2 "children" "num_children" (j_array 16 (j_option j_child)) j_usize).
(** node_type.rs:299-314 InternalNode, 877-886 Node *)
Definition j_internal : jcodec (carr * nat) := j_struct2 "children" "leaf_count" j_children j_usize.
Definition j_node : jcodec raw_node := JCodec
  (fun n => match n with RNull => JStr (txt "Null") | RInternal a c => obj [("Internal"%string, j_to j_internal (a, c))] | RLeaf l => obj [("Leaf"%string, j_to j_leaf l)] end)
  (fun j => '(k, p) ← j_variant j;
    if bool_decide (k = txt "Null") then (if unit_payload p then Some RNull else None)
    else if bool_decide (k = txt "Internal") then (x ← required j_internal p; Some (RInternal x.1 x.2))
    else if bool_decide (k = txt "Leaf") then (x ← required j_leaf p; Some (RLeaf x)) else None).
