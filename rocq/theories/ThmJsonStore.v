(** C97: the JSON form of what the tree stores and serves, and what its readers do not check. *)
From Coq Require Import Strings.String.
From Verif Require Import Base Spec KeyFacts SmtFacts NodeType NodeFacts ProofDef ProofFacts TreeCache Tree Mock Driver Canon PutFacts PutTop VersionFacts ValueFacts StoreFacts DriverFacts ThmStore ThmStore2.
From Verif Require ThmChildren.
From Verif Require Import Iterator NibblePath NibbleFacts ChildrenArr Codec Borsh ThmBorsh ThmBorshStore Toy Demo ThmProof Json ThmJson.
From Coq Require Import Lia.
Local Open Scope nat_scope.
Local Opaque Spec.smt.

Section store.
Context (H : list byte -> bytes32).
Implicit Types (ops : list op).

(** Every node that a commit stores, and its key, is written and read back; different nodes (keys) have different texts. *)
Lemma node_fits_json n : node_fits n -> jnode_ok (node_raw n).
Proof.
  destruct n as [|[ch lc]|l]; cbn [node_fits node_raw jnode_ok in_children in_leaf_count]; try done. intros [L F]. split; [|exact L]. cbn [fst]. unfold jchildren_ok. cbn [children_raw ca_slots ca_num].
  split; [by rewrite map_length|]. split.
  - apply Forall_forall. intros o (n & -> & _)%elem_of_list_fmap. destruct (ch !! n) as [c|] eqn:E; [|done]. destruct (F _ _ E) as [A B]. split; [exact A|]. unfold c_leaf_count in B. by destruct (c_type c).
  - unfold usize_ok. rewrite ThmChildren.num_size. assert (size ch <= 16)%nat; [|lia]. rewrite <- size_dom. change 16%nat with (length all_nibbles).
    rewrite <- (size_list_to_set (C := gset nibble)) by apply all_nibbles_nodup. apply subseteq_size. intros n _. rewrite elem_of_list_to_set. apply all_nibbles_complete.
Qed.
Theorem C97_stored ops st xs (sets : list value_set) roots b nk nd : run H ops = Ok (st, xs) ->
  put_value_sets H (store_reader st) sets (num_versions ops) = Ok (roots, b) ->
  (num_versions ops + N.of_nat (length sets) < 2 ^ 64)%N -> (forall v, (N.of_nat (size (contents_at (history ops ++ sets) v)) < 2 ^ 64)%N) ->
  tb_nodes b !! nk = Some nd ->
  of_text j_node (to_text j_node (node_raw nd)) = Some (node_raw nd) /\ of_text j_nodekey (to_text j_nodekey (key_raw nk)) = Some (key_raw nk) /\
  forall nk' nd', tb_nodes b !! nk' = Some nd' -> (to_text j_node (node_raw nd) = to_text j_node (node_raw nd') -> nd = nd') /\ (to_text j_nodekey (key_raw nk) = to_text j_nodekey (key_raw nk') -> nk = nk').
Proof.
  intros R P V Sz E. pose proof (put_nodes_fit H _ _ _ _ _ _ R P V Sz) as F.
  assert (G : forall nk nd, tb_nodes b !! nk = Some nd -> jnode_ok (node_raw nd) /\ jkey_ok (key_raw nk)).
  { clear nk nd E. intros nk nd E. destruct (F _ _ E) as (A & B & C). split; [by apply node_fits_json|]. split; [exact A|]. unfold npath_ok, usize_ok. cbn [key_raw snd pack np_num]. lia. }
  destruct (G _ _ E) as [Gn Gk]. split; [exact (good_text _ _ _ jnode_good Gn)|]. split; [exact (good_text _ _ _ jkey_good Gk)|]. intros nk' nd' E'. destruct (G _ _ E') as [Gn' Gk']. split; intros T.
  - apply node_raw_inj. exact (proj1 (proj2 (json_form_ok _ _ jnode_good jnode_sound)) _ _ Gn Gn' T).
  - apply key_raw_inj. exact (proj1 (proj2 (json_form_ok _ _ jkey_good jkey_sound)) _ _ Gk Gk' T).
Qed.
(** A proof sent as JSON is the one that was made: what the client reads verifies against the root of the version, for the value read. *)
Theorem C97_served ops st xs (v : version) (k : key) x p : run H ops = Ok (st, xs) -> readable ops v -> get_with_proof H (store_reader st) k v = Ok (x, p) ->
  exists q r, of_text j_proof (to_text j_proof p) = Some q /\ get_root_hash H (store_reader st) v = Ok r /\
    match x with Some y => verify_existence H q r k y = Ok tt | None => verify_nonexistence H q r k = Ok tt end.
Proof.
  intros R L E. exists p. destruct x as [y|].
  - destruct (C06_existence_complete H _ _ _ _ _ _ _ R L E) as (r & Er & V). exists r. split; [by apply C97_proof|]. split; [exact Er|exact V].
  - destruct (C07_nonexistence_complete H _ _ _ _ _ _ R L E) as (r & Er & V). exists r. split; [by apply C97_proof|]. split; [exact Er|exact V].
Qed.
(** Whatever text a client is sent: if what it reads verifies against the root of the map [m], the answer is what [m] holds, or a hash collision is exhibited. *)
Theorem C97_any_text (t : list byte) (m : gmap key value) (k : key) p : of_text j_proof t = Some p ->
  (forall y, verify_existence H p (smt_root H m) k y = Ok tt -> m !! k = Some y \/ hash_broken H (y :: root_inputs H m ++ proof_inputs H k p)) /\
  (verify_nonexistence H p (smt_root H m) k = Ok tt -> m !! k = None \/ hash_broken H (root_inputs H m ++ proof_inputs H k p)) /\
  (forall r y, verify_existence H p r k y <> Panic /\ verify_nonexistence H p r k <> Panic).
Proof.
  intros _. split; [intros y; apply C08_existence_soundness|]. split; [apply C09_nonexistence_soundness|]. intros r y. split; [apply C17_verify_existence_never_panics|apply C17_verify_nonexistence_never_panics].
Qed.
End store.

(** *** Refuted: "a text is the form of at most one value, and a value has one text" holds in its first half only: white space, the order of members, unknown members, the array form and a missing
    optional member do not matter. *)
Definition texts_of_empty_proof : list (list byte) := map txt [
  "{""leaf"":null,""siblings"":[],""phantom_hasher"":null}";
  " { ""phantom_hasher"" : null , ""siblings"" : [ ] , ""leaf"" : null } ";
  "{""siblings"":[],""phantom_hasher"":null}";
  "{""leaf"":null,""extra"":{""a"":[1,-2.5e3,""x\n""]},""siblings"":[],""phantom_hasher"":null}";
  "[null,[],null]"]%string.
Theorem C97_many_texts_refuted : NoDup texts_of_empty_proof /\ length texts_of_empty_proof = 5 /\ Forall (fun t => of_text j_proof t = Some (SMProof None [])) texts_of_empty_proof /\
  to_text j_proof (SMProof None []) = txt "{""leaf"":null,""siblings"":[],""phantom_hasher"":null}".
Proof.
  split; [apply (bool_decide_eq_true_1 _); vm_compute; reflexivity|]. split; [reflexivity|]. split; [|vm_compute; reflexivity].
  unfold texts_of_empty_proof. cbn [map]. repeat (apply Forall_cons; split; [vm_compute; reflexivity|]). constructor.
Qed.
(** Texts that are refused: a repeated member, a missing one, something after the value, a number that is too large or not an integer, an array of the wrong length, an unknown variant. *)
Definition refused : bool :=
  forallb (fun t => bool_decide (of_text j_proof (txt t) = None)) [
    "{""leaf"":null,""leaf"":null,""siblings"":[],""phantom_hasher"":null}"; "{""leaf"":null,""phantom_hasher"":null}"; "{""leaf"":null,""siblings"":[],""phantom_hasher"":null}x";
    "{""leaf"":null,""siblings"":[""null""],""phantom_hasher"":null}"; "[null,[]]"; "{""leaf"":null,""siblings"":[],""phantom_hasher"":null"; ""]%string &&
  forallb (fun t => bool_decide (of_text j_proof (txt t) = None)) [
    "[null,[],null,null]"; "[null,[{""Null"":null,""x"":1}],null]"; "[null,[{}],null]"; "[null,[{""Null"":null,""Null"":null}],null]"; "[null,[""null""],null]"; "[null,[""Leaf""],null]";
    "{""leaf"":null,""siblings"":[],}"; "[null,[],null,]"; "[null,[,],null]"; "{""sibling\u00"":[]}"; "{""sib\xings"":[],""phantom_hasher"":null}"]%string &&
  forallb (fun t => bool_decide (of_text j_proof (txt "{""siblings"":[],""phantom_hasher"":null,""x"":" ++ txt t ++ txt "}") = None))
    ["1e"; "1."; "1e+"; "-"; "1.e5"; "01"; ".5"; "+1"; "0x1"; "-01"; "1e-"; "nul"; "nulls"; "tru"; "[1 2]"; "[1,]"; "{1:2}"; "{""a"" 1}"; "{""a"":1,}"; """\x"""; """\u12"""; """\ud83d"""; """\ud83d\ue000"""; """\ud83d\udbff"""; """\u00g0"""; """\u00G0"""; """\u00:0"""; """\u00/0"""; """\u00@0"""; """\u00`0"""; """\udc00"""; """\ud83dx"""; """\ud83d\n"""; """\ud83d\u0041"""; """"]%string &&
  forallb (fun t => bool_decide (of_text j_proof (txt "{""siblings"":[],""phantom_hasher"":null,""x"":" ++ txt t ++ txt "}") = Some (SMProof None [])))
    ["1e5"; "1.5"; "1e+5"; "-1"; "1.0E-05"; "0"; "-0"; "0.5"; "true"; "false"; "[]"; "[ 1 , 2 ]"; "{}"; "{ ""a"" : 1 }"; "[[[]]]"; """\\"""; """\u0041"""; """\u00fc"""; """\uD83D\uDE00"""; """\ue000"""; """\uD7ff"""; """\udbff\udfff"""; """\ud800\udc00"""; """\u0aFf"""; """"""; "10"]%string &&
  forallb (fun t => bool_decide (of_text j_nibble (txt t) = None)) ["256"; "-1"; "1.0"; "01"; "1e0"; "null"; """1"""]%string &&
  forallb (fun t => bool_decide (of_text j_b32 (txt t) = None)) ["[1,2,3]"; "[]"]%string.
(** White space of every kind, escapes in names, and the two spellings of a unit variant are accepted; a control character in a string is not. *)
Definition spellings : bool :=
  forallb (fun t => bool_decide (of_text j_proof t = Some (SMProof None [SMNull])))
    [txt "{" ++ [x0a; x09] ++ txt """siblings""" ++ [x0d; x0a] ++ txt ":[{""Null"":null}],""phantom_hasher"":null}"; txt "{""sib\u006Cings"":[""N\u0075ll""],""phantom_hasher"":null}"; txt "[null,[""Null""],null]"] &&
  bool_decide (of_text j_proof (txt "{""leaf" ++ [x0a] ++ txt """:null,""siblings"":[""Null""],""phantom_hasher"":null}") = None) &&
  bool_decide (of_text j_proof (txt "{""siblings"":[{""Null"":1}],""phantom_hasher"":null}") = None) &&
  match read_text (txt """a\n\r\t\b\f\/\\\""\u000a\u006Cz\u00e9\u20AC\ud83d\uDE00\u07ff\u0800\uffff""") with Some (JStr s) => bool_decide (s = txt "a" ++ [x0a; x0d; x09; x08; x0c; x2f; x5c; x22; x0a; x6c] ++ txt "z" ++ [xc3; xa9; xe2; x82; xac; xf0; x9f; x98; x80; xdf; xbf; xe0; xa0; x80; xef; xbf; xbf]) | _ => false end &&
  bool_decide (of_text j_u64 (txt "18446744073709551615") = Some (2 ^ 64 - 1)%N) && bool_decide (of_text j_u64 (txt "18446744073709551616") = None).
Theorem C97_spellings : spellings = true. Proof. vm_compute. reflexivity. Qed.
Theorem C97_refused : refused = true. Proof. vm_compute. reflexivity. Qed.

(** *** Refuted: "what the readers accept could have been built by the API".  As with Borsh (C55) nothing is checked: a path that claims five nibbles and has none (reading one panics), a nibble of 200, sixteen slots with
    the wrong count, an internal node without children. *)
Theorem C97_unchecked_refuted :
  (exists t, of_text j_npath t = Some (NP 5 []) /\ np_get_nibble (NP 5 []) 0 = Panic /\ forall l, ~ represents (NP 5 []) l) /\
  (exists t b, of_text j_nibble t = Some b /\ nib_from_u8 (Byte.to_N b) = Panic) /\
  (exists t, of_text j_children t = Some bad_children /\ (forall m, bad_children <> children_raw m) /\ ca_is_empty bad_children = true /\ ca_remove bad_children (nib_of_N 0) = Panic) /\
  (exists t, of_text j_node t = Some (node_raw (Internal (mkInternal ∅ 7))) /\ internal_new ∅ = Panic).
Proof.
  split_and!.
  - exists (txt "{""num_nibbles"":5,""bytes"":[]}"). split; [vm_compute; reflexivity|]. split; [reflexivity|]. intros l [A B]. cbn in A, B. by destruct l.
  - exists (txt "200"), xc8. split; vm_compute; reflexivity.
  - exists (to_text j_children bad_children). split; [vm_compute; reflexivity|]. destruct C55_bad_children_accepted as (_ & _ & Q). exact Q.
  - exists (to_text j_node (node_raw (Internal (mkInternal ∅ 7)))). split; [vm_compute; reflexivity|reflexivity].
Qed.

(** A store that serves such a node without children as the root of a version: the version has the root hash of the empty tree and, it says, [n] leaves; an iterator that starts at a key is a panic, and one that
    starts at one of the [n] indices an error. *)
Theorem C97_empty_node_served (H : list byte -> bytes32) rd v n : rd_node rd (nk_root v) = Some (Internal (mkInternal ∅ n)) ->
  get_root_hash H rd v = Ok SPARSE_MERKLE_PLACEHOLDER_HASH /\ get_leaf_count rd v = Ok n /\ (forall k, iter_new rd v k = Panic) /\ forall i, (i < n)%nat -> exists e, iter_new_by_index rd v i = Err e.
Proof.
  intros E. split_and!.
  - unfold get_root_hash, get_root_node_option. rewrite E. reflexivity.
  - unfold get_leaf_count, get_root_node_option. rewrite E. reflexivity.
  - intros k. unfold iter_new. destruct (key_nibbles k) as [|a l] eqn:Ek; cbn [iter_new_loop]; unfold rd_get_node; rewrite E; reflexivity.
  - intros i Li. unfold iter_new_by_index, rd_get_node. rewrite E. cbn [ok_or]. rewrite bind_Ok. cbn [node_leaf_count in_leaf_count]. rewrite (proj2 (Nat.leb_gt n i) Li). eexists. reflexivity.
Qed.

(** *** Concrete case: the JSON text of a proof of a store, and of all nodes of its batch. *)
Definition demo_json : bool :=
  match run toy [Commit [[(K00, Some va); (K80, Some vb)]]] with
  | Ok (st, _) =>
      match get_with_proof toy (store_reader st) K00 0, put_value_sets toy (store_reader st) [[(KC0, Some vc)]; [(K00, None)]] 1 with
      | Ok (Some x, p), Ok (_, b) =>
          let nodes := map_to_list (tb_nodes b) in
          bool_decide (of_text j_proof (to_text j_proof p) = Some p) && (200 <? length (to_text j_proof p)) && (2 <? length nodes) &&
          forallb (fun kn => match of_text j_node (to_text j_node (node_raw kn.2)), of_text j_nodekey (to_text j_nodekey (key_raw kn.1)) with Some _, Some k => bool_decide (k = key_raw kn.1) | _, _ => false end) nodes
      | _, _ => false
      end
  | _ => false
  end.
Theorem C97_demo : demo_json = true. Proof. vm_compute. reflexivity. Qed.
Theorem C97_demo_texts :
  to_text j_nodekey (3%N, pack [nib_of_N 1; nib_of_N 15; nib_of_N 2]) = txt "{""version"":3,""nibble_path"":{""num_nibbles"":3,""bytes"":[31,32]}}" /\
  to_text j_node_type (NTInternal 12) = txt "{""Internal"":{""leaf_count"":12}}" /\ to_text j_node_type NTLeaf = txt """Leaf""" /\
  to_text j_range_proof (RangeProof [SMNull]) = txt "{""right_siblings"":[""Null""],""_phantom"":null}".
Proof. split_and!; vm_compute; reflexivity. Qed.
