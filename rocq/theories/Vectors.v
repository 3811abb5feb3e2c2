(** The test vectors of /repo: src/tests/sha2_256_vectors.json, byte for byte (the literal below), and how src/tests/vectors.rs:7-50 reads and uses it. *)
From Coq Require Import Strings.String.
From Verif Require Import Base Spec NodeType ProofDef TreeCache Tree Mock Json Sha256.
Local Open Scope nat_scope.

Definition vectors_file : list byte := txt "{
	""description"": ""Test vectors for a JMT instantiated with the sha2-256 hash function. Keys and values are hex-encoded byte strings. Neither keys nor values have been pre-hashed."",
	""hash_function"": ""sha2"",
	""vectors"": [
		{
			""expected_root"": ""5350415253455f4d45524b4c455f504c414345484f4c4445525f484153485f5f"",
			""data"": []
		},
		{
			""expected_root"": ""6b97115f56e533f2fd443f7e76e4d1ff94d34e6b2e233f2dbdf5cfd1ec39a30c"",
			""data"": [
				{
					""key"": ""68656c6c6f"",
					""value"": ""776f726c64""
				}
			]
		},
		{
			""expected_root"": ""e1e1e220d4b4a9611a9a09dbcee964b4a6c3a40f6f4dee265ad45cf64568790b"",
			""data"": [
				{
					""key"": ""68656c6c6f"",
					""value"": ""776f726c64""
				},
				{
					""key"": ""676f6f64627965"",
					""value"": ""776f726c64""
				}
			]
		}
	]
}
".
(** the `hex` crate's serde form of byte strings: a string of hexadecimal digits *)
Fixpoint unhex (l : list byte) : option (list byte) :=
  match l with
  | [] => Some []
  | a :: b :: l' => x ← hex_val a; y ← hex_val b; r ← unhex l'; Some (byte_of_N (16 * x + y) :: r)
  | _ => None
  end.
Definition of_hex (j : json) : option (list byte) := match j with JStr s => unhex s | _ => None end.
(** vectors.rs:21-27 KeyValuePair, 14-19 TestVector, 7-12 TestVectorWrapper *)
Definition read_pair (j : json) : option (list byte * list byte) := l ← j_fields ["key"; "value"]%string j; match l with [jk; jv] => k ← jk ≫= of_hex; v ← jv ≫= of_hex; Some (k, v) | _ => None end.
Definition read_vector (j : json) : option (bytes32 * list (list byte * list byte)) :=
  l ← j_fields ["expected_root"; "data"]%string j;
  match l with [jr; jd] => r ← jr ≫= of_hex; r ← to_bytes32 r; d ← jd; match d with JArr l => ps ← mapM read_pair l; Some (r, ps) | _ => None end | _ => None end.
Definition read_vectors (t : list byte) : option (list (bytes32 * list (list byte * list byte))) :=
  j ← read_text t; l ← j_fields ["description"; "hash_function"; "vectors"]%string j;
  match l with [Some (JStr _); Some (JStr _); Some (JArr l)] => mapM read_vector l | _ => None end.
(** vectors.rs:39-49: the key is hashed, the set is put at version 0 of a store that stays empty *)
Definition vector_set (d : list (list byte * list byte)) : list (key * option value) := map (fun kv => (sha256 kv.1, Some kv.2)) d.
Definition vector_root (d : list (list byte * list byte)) : outcome hash := '(r, _) ← put_value_set sha256 (store_reader store_empty) (vector_set d) 0; Ok r.
