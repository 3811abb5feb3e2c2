(** C98: the tree with SHA-256. *)
From Coq Require Import Strings.String.
From Verif Require Import Base Spec SmtFacts Requests ThmRequests NodeType ProofDef TreeCache Tree Mock Driver Canon Hasher ThmHasher Codec Json Sha256 Vectors ThmFirst ThmStore Toy Demo ThmProof.
From Coq Require Import Lia.
Local Open Scope nat_scope.

(** ** SHA-256 in pieces is SHA-256 *)
Lemma absorb_fuel : forall f f' s l, length l <= f -> length l <= f' -> absorb f s l = absorb f' s l.
Proof.
  induction f as [|f IH]; intros [|f'] s l L L'; cbn [absorb]; [done|..].
  - destruct l; [done|cbn in L; lia].
  - destruct l; [done|cbn in L'; lia].
  - destruct (Nat.leb_spec 64 (length l)); [|done]. apply IH; rewrite drop_length; lia.
Qed.
Lemma absorb_rest : forall f s l, length l <= f -> length (absorb f s l).2 < 64.
Proof. induction f as [|f IH]; intros s l L; cbn [absorb]; [cbn; lia|]. destruct (Nat.leb_spec 64 (length l)); [|done]. apply IH. rewrite drop_length. lia. Qed.
Lemma absorb_mod : forall f s l, length l <= f -> length (absorb f s l).2 = length l mod 64.
Proof.
  induction f as [|f IH]; intros s l L; cbn [absorb]; [destruct l; [done|cbn in L; lia]|]. destruct (Nat.leb_spec 64 (length l)).
  - rewrite IH by (rewrite drop_length; lia). rewrite drop_length. replace (length l) with (length l - 64 + 1 * 64) at 2 by lia. by rewrite Nat.mod_add.
  - cbn [snd]. by rewrite Nat.mod_small.
Qed.
Lemma absorb_app : forall f s l d, length l <= f -> let '(w, r) := absorb f s l in absorb (length (l ++ d)) s (l ++ d) = absorb (length (r ++ d)) w (r ++ d).
Proof.
  induction f as [|f IH]; intros s l d L; cbn [absorb]; [done|]. destruct (Nat.leb_spec 64 (length l)) as [G|G]; [|done].
  specialize (IH (compress s (take 64 l)) (drop 64 l) d ltac:(rewrite drop_length; lia)). destruct (absorb f (compress s (take 64 l)) (drop 64 l)) as [w r]. rewrite <- IH.
  assert (Q : exists n, length (l ++ d) = S n) by (exists (length (l ++ d) - 1); rewrite app_length; lia). destruct Q as (n & Q). rewrite Q. cbn [absorb].
  destruct (Nat.leb_spec 64 (length (l ++ d))) as [G'|G']; [|rewrite app_length in G'; lia]. rewrite take_app_le, drop_app_le by lia. apply absorb_fuel; rewrite ?app_length, ?drop_length in *; lia.
Qed.
Definition state_of (l : list byte) : sha_state := let '(w, r) := absorb (length l) initial l in ShaState w r (length l).
Lemma update_state l d : sha_update (state_of l) d = state_of (l ++ d).
Proof.
  unfold state_of. pose proof (absorb_app (length l) initial l d (le_n _)) as E. destruct (absorb (length l) initial l) as [w r]. unfold sha_update. cbn [ss_buffer ss_words ss_count]. rewrite <- E.
  destruct (absorb (length (l ++ d)) initial (l ++ d)) as [w' r']. by rewrite app_length.
Qed.
Lemma pieces_state ps : forall l, fold_left sha_update ps (state_of l) = state_of (l ++ concat ps).
Proof. induction ps as [|p ps IH]; intros l; cbn [fold_left concat]; [by rewrite app_nil_r|]. by rewrite update_state, IH, app_assoc. Qed.
Lemma finalize_state l : sha_finalize (state_of l) = sha256 l.
Proof.
  unfold state_of, sha256. pose proof (absorb_app (length l) initial l (padding (length l)) (le_n _)) as E. destruct (absorb (length l) initial l) as [w r]. unfold sha_finalize. cbn [ss_buffer ss_words ss_count]. by rewrite <- E.
Qed.
Theorem C98_pieces (ps : list (list byte)) : sh_digest sha_hasher ps = sha256 (concat ps).
Proof. unfold sh_digest. cbn [sha_hasher sh_new sh_update sh_finalize]. change (ShaState initial [] 0) with (state_of []). rewrite pieces_state. apply finalize_state. Qed.
Theorem C98_streams : streams sha_hasher /\ forall data, sh_hash sha_hasher data = sha256 data.
Proof. split; [intros ps ps' E; by rewrite !C98_pieces, E|]. intros data. pose proof (C98_pieces [data]) as Q. cbn [concat] in Q. rewrite app_nil_r in Q. exact Q. Qed.
(** nodes hash to SHA-256 of the bytes of the specification *)
Theorem C98_nodes : (forall l r, sh_internal sha_hasher l r = sha256 (internal_input l r)) /\ (forall k vh, sh_leaf sha_hasher k vh = sha256 (leaf_input k vh)).
Proof.
  destruct C98_streams as [St E]. destruct (C94_streams sha_hasher St) as (_ & A & B). split; intros; [rewrite A|rewrite B]; apply E.
Qed.
(** a digest always has its 32 bytes (the default of [digest_of] is never used), and a padded message consists of complete blocks *)
Lemma round_length s k w : length s = 8 -> length (one_round s k w) = 8.
Proof. intros L. do 9 (destruct s as [|? s]; try discriminate L). reflexivity. Qed.
Lemma rounds_length ks : forall w s, length s = 8 -> length (rounds ks w s) = 8.
Proof. induction ks as [|k ks IH]; intros w s L; cbn [rounds]; [done|]. apply IH. by apply round_length. Qed.
Lemma compress_length s b : length s = 8 -> length (compress s b) = 8.
Proof. intros L. unfold compress. rewrite zip_with_length, rounds_length by done. lia. Qed.
Lemma absorb_length : forall f s l, length s = 8 -> length (absorb f s l).1 = 8.
Proof. induction f as [|f IH]; intros s l L; cbn [absorb]; [done|]. destruct (64 <=? length l); [|done]. apply IH. by apply compress_length. Qed.
Lemma digest_total s : length s = 8 -> exists d, to_bytes32 (flat_map word_bytes s) = Some d.
Proof.
  intros L. unfold to_bytes32. destruct (bool_dec _ _) as [E|E]; [by eexists|]. exfalso. apply E. apply Nat.eqb_eq. do 9 (destruct s as [|? s]; try discriminate L). reflexivity.
Qed.
Theorem C98_digest (l : list byte) : let m := l ++ padding (length l) in
  length m mod 64 = 0 /\ (absorb (length m) initial m).2 = [] /\ Some (sha256 l) = to_bytes32 (flat_map word_bytes (absorb (length m) initial m).1).
Proof.
  intros m. assert (E : length m mod 64 = 0).
  { unfold m, padding. rewrite app_length. cbn [length]. rewrite app_length, repeat_length, rev_length, le_length. pose proof (Nat.div_mod (length l) 64 ltac:(lia)) as D. pose proof (Nat.mod_upper_bound (length l) 64 ltac:(lia)) as B.
    set (r := length l mod 64) in *. set (q := length l / 64) in *. destruct (Nat.leb_spec r 55) as [G|G].
    - replace ((119 - r) mod 64) with (55 - r) by (replace (119 - r) with (55 - r + 1 * 64) by lia; rewrite Nat.mod_add by lia; symmetry; apply Nat.mod_small; lia).
      replace (length l + S (55 - r + 8)) with (0 + (q + 1) * 64) by lia. by rewrite Nat.mod_add.
    - rewrite (Nat.mod_small (119 - r)) by lia. replace (length l + S (119 - r + 8)) with (0 + (q + 2) * 64) by lia. by rewrite Nat.mod_add. }
  split; [exact E|]. split.
  - pose proof (absorb_mod (length m) initial m (le_n _)) as Q. rewrite E in Q. by destruct (absorb (length m) initial m).2.
  - unfold sha256. fold m. unfold digest_of. destruct (digest_total (absorb (length m) initial m).1) as (d & Ed); [by apply absorb_length|]. by rewrite Ed.
Qed.

(** ** Published digests (FIPS 180-4 examples; lengths around the block boundary), in hexadecimal *)
Definition sha_case (msg : list byte) (hex : string) : bool := bool_decide (Some (b32 (sha256 msg)) = unhex (txt hex)).
Definition sha_cases : bool := forallb (fun x => sha_case x.1 x.2) [
  ((txt "abc"), "ba7816bf8f01cfea414140de5dae2223b00361a396177a9cb410ff61f20015ad"%string);
  ((txt ""), "e3b0c44298fc1c149afbf4c8996fb92427ae41e4649b934ca495991b7852b855"%string);
  ((txt "abcdbcdecdefdefgefghfghighijhijkijkljklmklmnlmnomnopnopq"), "248d6a61d20638b8e5c026930c3e6039a33ce45964ff2167f6ecedd419db06c1"%string);
  ((txt "abcdefghbcdefghicdefghijdefghijkefghijklfghijklmghijklmnhijklmnoijklmnopjklmnopqklmnopqrlmnopqrsmnopqrstnopqrstu"), "cf5b16a778af8380036ce59e7b0492370b249b11e8f07a51afac45037afee9d1"%string);
  (repeat x61 55, "9f4390f8d30c2dd92ec9f095b65e2b9ae9b0a925a5258e241c9f1e910f734318"%string);
  (repeat x61 56, "b35439a4ac6f0948b6d6f9e3c6af0f5f590ce20f1bde7090ef7970686ec6738a"%string);
  (repeat x61 57, "f13b2d724659eb3bf47f2dd6af1accc87b81f09f59f2b75e5c0bed6589dfe8c6"%string);
  (repeat x61 63, "7d3e74a05d7db15bce4ad9ec0658ea98e3f06eeecf16b4c6fff2da457ddc2f34"%string);
  (repeat x61 64, "ffe054fe7ae0cb6dc65c3af9b61d5209f439851db43d0ba5997337df154668eb"%string);
  (repeat x61 65, "635361c48bb9eab14198e76ea8ab7f1a41685d6ad62aa9146d301d4f17eb0ae0"%string);
  (repeat x61 119, "31eba51c313a5c08226adf18d4a359cfdfd8d2e816b13f4af952f7ea6584dcfb"%string);
  (repeat x61 120, "2f3d335432c70b580af0e8e1b3674a7c020d683aa5f73aaaedfdc55af904c21c"%string);
  (repeat x61 128, "6836cf13bac400e9105071cd6af47084dfacad4e5e302c94bfed24e013afb73e"%string);
  (repeat x61 1000, "41edece42d63e8d9bf515a9ba6932e1c20cbc9f5a5d134645adb5db1b9737ea3"%string)].
Theorem C98_published : sha_cases = true. Proof. vm_compute. reflexivity. Qed.

(** ** The repository's test vectors: read from the file, each root is the one that the model of put_value_set returns, which is the sparse Merkle root of the contents. *)
Definition vectors_ok : bool := match read_vectors vectors_file with
  | Some l => (length l =? 3)%nat && forallb (fun v => match vector_root v.2 with Ok r => bool_decide (r = v.1) | _ => false end && bool_decide (smt_root sha256 (apply_set ∅ (vector_set v.2)) = v.1)) l
  | None => false end.
Theorem C98_vectors : vectors_ok = true. Proof. vm_compute. reflexivity. Qed.

(** ** A history under SHA-256: roots, a proof of presence and one of absence, none of the hash inputs of the tree colliding *)
Definition sha_keys : list key := map (fun s => sha256 (txt s)) ["hello"; "goodbye"; "a"; "b"; "c"]%string.
Definition sha_history : bool :=
  match sha_keys with
  | [k1; k2; k3; k4; k5] =>
      let ops := [Commit [[(k1, Some va); (k2, Some vb)]; [(k3, Some va); (k4, Some vc)]]; CommitP [[(k2, None)]]] in
      match run sha256 ops with
      | Ok (st, xs) =>
          match get_with_proof sha256 (store_reader st) k3 2, get_with_proof sha256 (store_reader st) k2 2, get_root_hash sha256 (store_reader st) 2 with
          | Ok (Some x, p), Ok (None, q), Ok r =>
              bool_decide (x = va) && is_ok (verify_existence sha256 p r k3 va) && is_ok (verify_nonexistence sha256 q r k2) && negb (is_ok (verify_nonexistence sha256 p r k3)) && negb (is_ok (verify_existence sha256 p r k3 vb)) &&
              bool_decide (r = smt_root sha256 (contents_at (history ops) 2)) && sound_b sha256 (root_inputs sha256 (contents_at (history ops) 2))
          | _, _, _ => false
          end
      | _ => false
      end
  | _ => false
  end.
Theorem C98_demo : sha_history = true. Proof. vm_compute. reflexivity. Qed.
