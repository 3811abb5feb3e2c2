(** The Borsh wire format (crate borsh 1.3 with feature de_strict_order: Cargo.toml:27), as used by the derives of this
    crate.  The borsh crate is not part of /repo: its documented format is modelled here, and Borsh.v gives the derived
    (field by field, constructor index as a u8 tag) codecs of the types of /repo. *)
From Verif Require Import Base.
From Coq Require Import Lia Sorted.
Local Open Scope N_scope.

(** [enc x = None]: serialisation fails (a number or a length does not fit its field).
    [dec bs = None]: deserialisation fails; otherwise the value and the bytes that were not consumed. *)
Record codec (A : Type) : Type := Codec { enc : A -> option (list byte); dec : list byte -> option (A * list byte) }.
Arguments Codec {A} enc dec. Arguments enc {A} c. Arguments dec {A} c.
(** BorshDeserialize::try_from_slice: all bytes must be consumed *)
Definition try_from_slice {A} (c : codec A) (bs : list byte) : option A :=
  match dec c bs with Some (x, []) => Some x | _ => None end.

(** unsigned integers: n bytes, little endian *)
Fixpoint le_bytes (n : nat) (x : N) : list byte :=
  match n with O => [] | Datatypes.S m => byte_of_N (x mod 256) :: le_bytes m (x / 256) end.
Definition le_value (l : list byte) : N := foldr (fun b a => Byte.to_N b + 256 * a) 0 l.
Definition split_at (n : nat) (bs : list byte) : option (list byte * list byte) :=
  if (n <=? length bs)%nat then Some (take n bs, drop n bs) else None.
Definition c_uint (n : nat) : codec N :=
  Codec (fun x => if x <? 256 ^ N.of_nat n then Some (le_bytes n x) else None)
        (fun bs => '(a, r) ← split_at n bs; Some (le_value a, r)).
(** fixed-size byte arrays [u8; n] *)
Definition c_bytes (n : nat) : codec (list byte) :=
  Codec (fun x => if (length x =? n)%nat then Some x else None) (split_at n).
(** no bytes: unit, PhantomData *)
Definition c_unit : codec unit := Codec (fun _ => Some []) (fun bs => Some (tt, bs)).
(** structs and tuples: the fields in order *)
Definition c_pair {A B} (ca : codec A) (cb : codec B) : codec (A * B) :=
  Codec (fun xy => a ← enc ca xy.1; b ← enc cb xy.2; Some (a ++ b))
        (fun bs => '(x, r) ← dec ca bs; '(y, r') ← dec cb r; Some ((x, y), r')).
(** enums with two or three variants: a u8 variant index, then the fields *)
Definition c_enum2 {A B} (ca : codec A) (cb : codec B) : codec (A + B) :=
  Codec (fun x => match x with
                  | inl a => e ← enc ca a; Some (x00 :: e)
                  | inr b => e ← enc cb b; Some (x01 :: e) end)
        (fun bs => match bs with
                   | x00 :: r => '(a, r') ← dec ca r; Some (inl a, r')
                   | x01 :: r => '(b, r') ← dec cb r; Some (inr b, r')
                   | _ => None end).
Definition c_enum3 {A B C} (ca : codec A) (cb : codec B) (cc : codec C) : codec (A + (B + C)) :=
  Codec (fun x => match x with
                  | inl a => e ← enc ca a; Some (x00 :: e)
                  | inr (inl b) => e ← enc cb b; Some (x01 :: e)
                  | inr (inr b) => e ← enc cc b; Some (x02 :: e) end)
        (fun bs => match bs with
                   | x00 :: r => '(a, r') ← dec ca r; Some (inl a, r')
                   | x01 :: r => '(b, r') ← dec cb r; Some (inr (inl b), r')
                   | x02 :: r => '(b, r') ← dec cc r; Some (inr (inr b), r')
                   | _ => None end).
(** Option: 0, or 1 and the value *)
Definition c_option {A} (ca : codec A) : codec (option A) :=
  Codec (fun x => match x with None => Some [x00] | Some a => e ← enc ca a; Some (x01 :: e) end)
        (fun bs => match bs with
                   | x00 :: r => Some (None, r)
                   | x01 :: r => '(a, r') ← dec ca r; Some (Some a, r')
                   | _ => None end).
(** items one after the other *)
Fixpoint enc_items {A} (c : codec A) (l : list A) : option (list byte) :=
  match l with [] => Some [] | x :: l' => a ← enc c x; b ← enc_items c l'; Some (a ++ b) end.
Fixpoint dec_items {A} (c : codec A) (n : nat) (bs : list byte) : option (list A * list byte) :=
  match n with
  | O => Some ([], bs)
  | Datatypes.S m => '(x, r) ← dec c bs; '(l, r') ← dec_items c m r; Some (x :: l, r')
  end.
(** arrays [T; n] *)
Definition c_array {A} (n : nat) (c : codec A) : codec (list A) :=
  Codec (fun l => if (length l =? n)%nat then enc_items c l else None) (dec_items c n).
(** Vec: the length as u32, then the items *)
Definition c_vec {A} (c : codec A) : codec (list A) :=
  Codec (fun l => n ← enc (c_uint 4) (N.of_nat (length l)); b ← enc_items c l; Some (n ++ b))
        (fun bs => '(n, r) ← dec (c_uint 4) bs; dec_items c (N.to_nat n) r).
(** a type represented by another: [g] gives the representation, [f] rebuilds the value, or rejects *)
Definition c_conv {A B} (f : A -> option B) (g : B -> A) (c : codec A) : codec B :=
  Codec (fun y => enc c (g y)) (fun bs => '(x, r) ← dec c bs; y ← f x; Some (y, r)).

(** ** BTreeMap and BTreeSet: a Vec in increasing order; with de_strict_order the deserialiser rejects items that are
    not strictly increasing *)
Section sorted.
Context {K : Type} `{Countable K} (cmp : K -> K -> comparison).
Fixpoint insert_sorted {V} (kv : K * V) (l : list (K * V)) : list (K * V) :=
  match l with
  | [] => [kv]
  | x :: l' => match cmp kv.1 x.1 with Gt => x :: insert_sorted kv l' | _ => kv :: l end
  end.
Definition sorted_entries {V} (m : gmap K V) : list (K * V) := foldr insert_sorted [] (map_to_list m).
Fixpoint strictly_increasing {V} (l : list (K * V)) : bool :=
  match l with
  | x :: (y :: _) as l' => match cmp x.1 y.1 with Lt => strictly_increasing l' | _ => false end
  | _ => true
  end.
Definition c_btreemap {V} (ck : codec K) (cv : codec V) : codec (gmap K V) :=
  c_conv (fun l => if strictly_increasing l then Some (list_to_map l) else None) sorted_entries (c_vec (c_pair ck cv)).
Definition c_btreeset (ck : codec K) : codec (gset K) :=
  c_conv (fun l => let l' := map (fun k => (k, tt)) l in
                   if strictly_increasing l' then Some (list_to_set l) else None)
         (fun s => map fst (sorted_entries (set_to_map (fun k => (k, tt)) s : gmap K unit))) (c_vec ck).
End sorted.

(** ** Correctness: decoding inverts encoding, consuming exactly the encoding, and only encodings decode *)
Record good {A} (c : codec A) : Prop := {
  g_rt : forall x e rest, enc c x = Some e -> dec c (e ++ rest) = Some (x, rest);
  g_can : forall bs x rest, dec c bs = Some (x, rest) -> exists e, enc c x = Some e /\ bs = e ++ rest }.

Lemma slice_rt {A} (c : codec A) x bs : good c -> enc c x = Some bs -> try_from_slice c bs = Some x.
Proof. intros G E. unfold try_from_slice. rewrite <- (app_nil_r bs). by rewrite (g_rt _ G _ _ _ E). Qed.
Lemma slice_can {A} (c : codec A) x bs : good c -> try_from_slice c bs = Some x -> enc c x = Some bs.
Proof.
  intros G. unfold try_from_slice. destruct (dec c bs) as [[y [|? ?]]|] eqn:E; try done. intros [= ->].
  apply (g_can _ G) in E as (e & E & ->). by rewrite app_nil_r.
Qed.
Lemma slice_iff {A} (c : codec A) x bs : good c -> try_from_slice c bs = Some x <-> enc c x = Some bs.
Proof. intros G. split; [by apply slice_can|by apply slice_rt]. Qed.

Lemma split_at_app n a r : length a = n -> split_at n (a ++ r) = Some (a, r).
Proof.
  intros E. unfold split_at. rewrite app_length. destruct (Nat.leb_spec n (length a + length r)); [|lia].
  rewrite take_app_alt, drop_app_alt by done. done.
Qed.
Lemma split_at_inv n bs a r : split_at n bs = Some (a, r) -> bs = a ++ r /\ length a = n.
Proof.
  unfold split_at. destruct (Nat.leb_spec n (length bs)); [|done]. intros [= <- <-]. rewrite take_drop, take_length. split; [done|lia].
Qed.
Lemma to_of_N x : x < 256 -> Byte.to_N (byte_of_N x) = x.
Proof.
  intros L. unfold byte_of_N. pose proof (Byte.to_of_N_iff) as T. destruct (Byte.of_N x) as [b|] eqn:E.
  - cbn. by apply Byte.to_of_N.
  - apply Byte.of_N_None_iff in E. lia.
Qed.
Lemma le_length n x : length (le_bytes n x) = n.
Proof. revert x. induction n; cbn; auto. Qed.
Lemma le_value_bytes n : forall x, x < 256 ^ N.of_nat n -> le_value (le_bytes n x) = x.
Proof.
  induction n as [|n IH]; intros x L; [cbn in *; lia|]. cbn [le_bytes]. change (le_value (?b :: ?l)) with (Byte.to_N b + 256 * le_value l).
  rewrite Nat2N.inj_succ, N.pow_succ_r' in L. rewrite IH by (apply N.div_lt_upper_bound; lia).
  rewrite to_of_N by (apply N.mod_lt; lia). pose proof (N.div_mod x 256). lia.
Qed.
Lemma le_bytes_value a : le_value a < 256 ^ N.of_nat (length a) /\ le_bytes (length a) (le_value a) = a.
Proof.
  induction a as [|b a [IH1 IH2]]; [by split|]. change (le_value (b :: a)) with (Byte.to_N b + 256 * le_value a).
  pose proof (Byte.to_N_bounded b) as B. cbn [length]. rewrite Nat2N.inj_succ, N.pow_succ_r'. split; [nia|].
  cbn [le_bytes]. replace ((Byte.to_N b + 256 * le_value a) mod 256) with (Byte.to_N b).
  2:{ apply (N.mod_unique _ _ (le_value a)); lia. }
  replace ((Byte.to_N b + 256 * le_value a) / 256) with (le_value a).
  2:{ apply (N.div_unique _ _ _ (Byte.to_N b)); lia. }
  rewrite IH2, byte_of_to_N. done.
Qed.

Lemma uint_good n : good (c_uint n).
Proof.
  split.
  - intros x e r. cbn. destruct (N.ltb_spec x (256 ^ N.of_nat n)) as [L|]; [|done]. intros [= <-].
    rewrite split_at_app by apply le_length. cbn. by rewrite le_value_bytes.
  - intros bs x r. cbn. destruct (split_at n bs) as [[a r']|] eqn:E; [|done]. cbn. intros [= <- <-].
    apply split_at_inv in E as [-> <-]. destruct (le_bytes_value a) as [L E].
    destruct (N.ltb_spec (le_value a) (256 ^ N.of_nat (length a))); [|lia]. rewrite E. eauto.
Qed.
Lemma bytes_good n : good (c_bytes n).
Proof.
  split.
  - intros x e r. cbn. destruct (Nat.eqb_spec (length x) n) as [E|]; [|done]. intros [= <-]. by apply split_at_app.
  - intros bs x r. cbn. intros [-> E]%split_at_inv. rewrite E, Nat.eqb_refl. eauto.
Qed.
Lemma unit_good : good c_unit.
Proof. split; [intros [] e r; cbn; by intros [= <-]|intros bs [] r; cbn; intros [= <-]; by exists []]. Qed.
Lemma pair_good {A B} (ca : codec A) (cb : codec B) : good ca -> good cb -> good (c_pair ca cb).
Proof.
  intros GA GB. split.
  - intros [x y] e r. cbn. destruct (enc ca x) as [a|] eqn:Ea; [|done]. cbn. destruct (enc cb y) as [b|] eqn:Eb; [|done]. cbn.
    intros [= <-]. rewrite <- app_assoc, (g_rt _ GA _ _ _ Ea). cbn. by rewrite (g_rt _ GB _ _ _ Eb).
  - intros bs [x y] r. cbn. destruct (dec ca bs) as [[x' r1]|] eqn:Ea; [|done]. cbn.
    destruct (dec cb r1) as [[y' r2]|] eqn:Eb; [|done]. cbn. intros [= -> -> ->].
    apply (g_can _ GA) in Ea as (a & -> & ->). apply (g_can _ GB) in Eb as (b & -> & ->). cbn. eexists. split; [done|]. by rewrite app_assoc.
Qed.
Lemma enum2_good {A B} (ca : codec A) (cb : codec B) : good ca -> good cb -> good (c_enum2 ca cb).
Proof.
  intros GA GB. split.
  - intros [a|b] e r; cbn; [destruct (enc ca a) as [ea|] eqn:E|destruct (enc cb b) as [eb|] eqn:E]; cbn; try done; intros [= <-]; cbn;
      [rewrite (g_rt _ GA _ _ _ E)|rewrite (g_rt _ GB _ _ _ E)]; done.
  - intros [|[] bs] x r; cbn; try done; [destruct (dec ca bs) as [[y r1]|] eqn:E|destruct (dec cb bs) as [[y r1]|] eqn:E]; cbn; try done;
      intros [= <- <-]; [apply (g_can _ GA) in E as (e & -> & ->)|apply (g_can _ GB) in E as (e & -> & ->)]; cbn; eauto.
Qed.
Lemma enum3_good {A B C} (ca : codec A) (cb : codec B) (cc : codec C) : good ca -> good cb -> good cc -> good (c_enum3 ca cb cc).
Proof.
  intros GA GB GC. split.
  - intros [a|[b|b]] e r; cbn; [destruct (enc ca a) as [ea|] eqn:E|destruct (enc cb b) as [eb|] eqn:E|destruct (enc cc b) as [eb|] eqn:E];
      cbn; try done; intros [= <-]; cbn; [rewrite (g_rt _ GA _ _ _ E)|rewrite (g_rt _ GB _ _ _ E)|rewrite (g_rt _ GC _ _ _ E)]; done.
  - intros [|[] bs] x r; cbn; try done;
      [destruct (dec ca bs) as [[y r1]|] eqn:E|destruct (dec cb bs) as [[y r1]|] eqn:E|destruct (dec cc bs) as [[y r1]|] eqn:E]; cbn; try done;
      intros [= <- <-];
      [apply (g_can _ GA) in E as (e & -> & ->)|apply (g_can _ GB) in E as (e & -> & ->)|apply (g_can _ GC) in E as (e & -> & ->)]; cbn; eauto.
Qed.
Lemma option_good {A} (ca : codec A) : good ca -> good (c_option ca).
Proof.
  intros GA. split.
  - intros [a|] e r; cbn; [|by intros [= <-]]. destruct (enc ca a) as [ea|] eqn:E; cbn; [|done]. intros [= <-]. cbn. by rewrite (g_rt _ GA _ _ _ E).
  - intros [|[] bs] x r; cbn; try done; [intros [= <- <-]; by exists [x00]|]. destruct (dec ca bs) as [[y r1]|] eqn:E; cbn; [|done].
    intros [= <- <-]. apply (g_can _ GA) in E as (e & -> & ->). cbn. eauto.
Qed.
Lemma items_rt {A} (c : codec A) : good c -> forall l e r, enc_items c l = Some e -> dec_items c (length l) (e ++ r) = Some (l, r).
Proof.
  intros G. induction l as [|x l IH]; intros e r; cbn; [by intros [= <-]|]. destruct (enc c x) as [a|] eqn:E; [|done]. cbn.
  destruct (enc_items c l) as [b|]; [|done]. cbn. intros [= <-]. rewrite <- app_assoc, (g_rt _ G _ _ _ E). cbn. by rewrite (IH b r).
Qed.
Lemma items_can {A} (c : codec A) : good c -> forall n bs l r, dec_items c n bs = Some (l, r) ->
  length l = n /\ exists e, enc_items c l = Some e /\ bs = e ++ r.
Proof.
  intros G. induction n as [|n IH]; intros bs l r; cbn; [intros [= <- <-]; split; [done|by exists []]|].
  destruct (dec c bs) as [[x r1]|] eqn:E; [|done]. cbn. destruct (dec_items c n r1) as [[l' r2]|] eqn:E2; [|done]. cbn. intros [= <- <-].
  apply IH in E2 as [<- (b & E2 & ->)]. apply (g_can _ G) in E as (a & E & ->). cbn. rewrite E, E2. cbn. split; [done|].
  eexists. split; [done|]. by rewrite app_assoc.
Qed.
Lemma array_good {A} n (c : codec A) : good c -> good (c_array n c).
Proof.
  intros G. split.
  - intros l e r. cbn. destruct (Nat.eqb_spec (length l) n) as [<-|]; [|done]. by apply items_rt.
  - intros bs l r. cbn. intros [E (e & E2 & ->)]%(items_can _ G). rewrite E, Nat.eqb_refl. eauto.
Qed.
Lemma vec_good {A} (c : codec A) : good c -> good (c_vec c).
Proof.
  intros G. split.
  - intros l e r. cbn [enc c_vec]. destruct (enc (c_uint 4) _) as [a|] eqn:E; [|done]. cbn [mbind option_bind].
    destruct (enc_items c l) as [b|] eqn:E2; [|done]. cbn [mbind option_bind]. intros [= <-]. cbn [dec c_vec].
    rewrite <- app_assoc, (g_rt _ (uint_good 4) _ _ _ E). cbn [mbind option_bind]. rewrite Nat2N.id. by apply items_rt.
  - intros bs l r. cbn [dec enc c_vec]. destruct (dec (c_uint 4) bs) as [[n r1]|] eqn:E; [|done]. cbn [mbind option_bind].
    intros [L (e & E2 & ->)]%(items_can _ G). apply (g_can _ (uint_good 4)) in E as (a & E & ->). rewrite L, N2Nat.id, E, E2.
    cbn [mbind option_bind]. eexists. split; [done|]. by rewrite app_assoc.
Qed.
Lemma conv_good {A B} (f : A -> option B) (g : B -> A) (c : codec A) :
  good c -> (forall y e, enc c (g y) = Some e -> f (g y) = Some y) -> (forall x y, f x = Some y -> g y = x) -> good (c_conv f g c).
Proof.
  intros G FG GF. split.
  - intros y e r. cbn. intros E. rewrite (g_rt _ G _ _ _ E). cbn. by rewrite (FG _ _ E).
  - intros bs y r. cbn. destruct (dec c bs) as [[x r1]|] eqn:E; [|done]. cbn. destruct (f x) as [y'|] eqn:F; [|done]. cbn.
    intros [= <- <-]. apply (g_can _ G) in E as (e & E & ->). rewrite (GF _ _ F), E. eauto.
Qed.

Section sorted_facts.
Context {K : Type} `{Countable K} (cmp : K -> K -> comparison).
Context (cmp_eq : forall x y, cmp x y = Eq <-> x = y) (cmp_anti : forall x y, cmp y x = CompOpp (cmp x y))
        (cmp_trans : forall x y z, cmp x y = Lt -> cmp y z = Lt -> cmp x z = Lt).
(** the order of the keys of a sorted map, for the proofs *)
Definition klt {V} (a b : K * V) : Prop := cmp a.1 b.1 = Lt.
Lemma increasing_sorted {V} (l : list (K * V)) : strictly_increasing cmp l = true <-> StronglySorted klt l.
Proof using cmp_trans.
  split.
  - induction l as [|x [|y l] IH]; [constructor|repeat constructor|]. cbn [strictly_increasing]. destruct (cmp x.1 y.1) eqn:E; try done.
    intros S. specialize (IH S). constructor; [done|]. constructor; [done|]. inversion IH as [|?? ? F]; subst.
    eapply List.Forall_impl; [|exact F]. intros z Z. unfold klt in *. eauto.
  - induction 1 as [|x l S IH F]; [done|]. destruct l as [|y l]; [done|]. cbn [strictly_increasing].
    inversion F as [|?? Y ?]; subst. unfold klt in Y. by rewrite Y.
Qed.
Lemma sorted_unique {V} (l l' : list (K * V)) :
  StronglySorted klt l -> StronglySorted klt l' -> (forall x, x ∈ l <-> x ∈ l') -> l = l'.
Proof using cmp_eq cmp_anti cmp_trans.
  clear -cmp_eq cmp_anti cmp_trans.
  intros S. revert l'. induction S as [|x l S IH F]; intros l' S' E.
  - destruct l' as [|y l']; [done|]. exfalso. assert (y ∈ @nil (K * V)) as Y by (apply E; left). by apply elem_of_nil in Y.
  - destruct l' as [|y l']; [exfalso; assert (x ∈ @nil (K * V)) as Y by (apply E; left); by apply elem_of_nil in Y|].
    inversion S' as [|?? S2 F2]; subst. rewrite List.Forall_forall in F, F2. 
    assert (forall a : K * V, ~ klt a a) as IR. { intros a A. unfold klt in A. rewrite (proj2 (cmp_eq _ _) eq_refl) in A. done. }
    assert (forall a b : K * V, klt a b -> klt b a -> False) as AS. { intros a b A B. unfold klt in *. rewrite cmp_anti, A in B. done. }
    assert (x = y) as <-.
    { assert (x ∈ y :: l') as X by (apply E; left). assert (y ∈ x :: l) as Y by (apply E; left).
      apply elem_of_cons in X as [|X]; [done|]. apply elem_of_cons in Y as [|Y]; [done|].
      exfalso. eapply AS; [apply F, elem_of_list_In, Y|apply F2, elem_of_list_In, X]. }
    f_equal. apply IH; [done|]. intros z. specialize (E z). rewrite !elem_of_cons in E. split; intros Z.
    + destruct (proj1 E (or_intror Z)) as [->|]; [|done]. exfalso. eapply IR, F, elem_of_list_In, Z.
    + destruct (proj2 E (or_intror Z)) as [->|]; [|done]. exfalso. eapply IR, F2, elem_of_list_In, Z.
Qed.
Lemma sorted_nodup {V} (l : list (K * V)) : StronglySorted klt l -> NoDup l.*1.
Proof using cmp_eq.
  induction 1 as [|x l S IH F]; [constructor|]. cbn. constructor; [|done]. intros X. apply elem_of_list_fmap in X as (y & Y & Z).
  rewrite List.Forall_forall in F. specialize (F y (proj1 (elem_of_list_In _ _) Z)). unfold klt in F. rewrite Y, (proj2 (cmp_eq _ _) eq_refl) in F. done.
Qed.
Lemma insert_sorted_elem {V} (kv : K * V) l x : x ∈ insert_sorted cmp kv l <-> x = kv \/ x ∈ l.
Proof.
  induction l as [|y l IH]; cbn; [by rewrite elem_of_list_singleton, elem_of_nil; naive_solver|].
  destruct (cmp kv.1 y.1); rewrite ?elem_of_cons, ?IH; naive_solver.
Qed.
Lemma insert_sorted_sorted {V} (kv : K * V) l : StronglySorted klt l -> kv.1 ∉ l.*1 -> StronglySorted klt (insert_sorted cmp kv l).
Proof using cmp_eq cmp_anti cmp_trans.
  induction 1 as [|y l S IH F]; cbn; intros N; [repeat constructor|]. apply not_elem_of_cons in N as [N1 N2].
  destruct (cmp kv.1 y.1) eqn:E.
  - by apply cmp_eq in E.
  - constructor; [by constructor|]. constructor; [done|]. eapply List.Forall_impl; [|exact F]. intros z Z. unfold klt in *. eauto.
  - constructor; [auto|]. apply List.Forall_forall. intros z Z. apply elem_of_list_In, insert_sorted_elem in Z as [->|Z].
    + unfold klt. by rewrite cmp_anti, E.
    + rewrite List.Forall_forall in F. by apply F, elem_of_list_In.
Qed.
Lemma sorted_entries_ok {V} (m : gmap K V) :
  StronglySorted klt (sorted_entries cmp m) /\ forall x, x ∈ sorted_entries cmp m <-> x ∈ map_to_list m.
Proof using cmp_eq cmp_anti cmp_trans.
  unfold sorted_entries. pose proof (NoDup_fst_map_to_list m) as N. induction (map_to_list m) as [|x l IH]; [split; [constructor|done]|].
  cbn in *. apply NoDup_cons in N as [N1 N2]. destruct (IH N2) as [S E]. split.
  - apply insert_sorted_sorted; [done|]. intros X. apply N1. apply elem_of_list_fmap in X as (y & Y & Z). apply elem_of_list_fmap. exists y. split; [done|]. by apply E.
  - intros z. rewrite insert_sorted_elem, E, elem_of_cons. done.
Qed.
Lemma entries_map {V} (m : gmap K V) : list_to_map (sorted_entries cmp m) = m.
Proof using cmp_eq cmp_anti cmp_trans.
  destruct (sorted_entries_ok m) as [S E]. apply map_eq. intros k. apply option_eq. intros v.
  rewrite <- elem_of_list_to_map by (by apply sorted_nodup). by rewrite E, elem_of_map_to_list.
Qed.
Lemma map_entries {V} (l : list (K * V)) : StronglySorted klt l -> sorted_entries cmp (list_to_map l : gmap K V) = l.
Proof using cmp_eq cmp_anti cmp_trans.
  intros S. destruct (sorted_entries_ok (list_to_map l : gmap K V)) as [S2 E]. apply sorted_unique; [done|done|].
  intros [k v]. rewrite E, elem_of_map_to_list. symmetry. apply elem_of_list_to_map. by apply sorted_nodup.
Qed.
Lemma btreemap_good {V} (ck : codec K) (cv : codec V) : good ck -> good cv -> good (c_btreemap cmp ck cv).
Proof using cmp_eq cmp_anti cmp_trans.
  intros GK GV. apply conv_good; [by apply vec_good, pair_good| |].
  - intros m e _. rewrite (proj2 (increasing_sorted _)) by apply sorted_entries_ok. by rewrite entries_map.
  - intros l m. destruct (strictly_increasing cmp l) eqn:I; [|done]. intros [= <-]. apply map_entries. by apply increasing_sorted.
Qed.
Lemma set_map_lookup (s : gset K) k : (set_to_map (fun k => (k, tt)) s : gmap K unit) !! k = Some tt <-> k ∈ s.
Proof.
  unfold set_to_map. rewrite <- elem_of_list_to_map.
  - rewrite elem_of_list_fmap. split; [intros (x & [= <-] & X); by apply elem_of_elements|intros X; exists k; split; [done|by apply elem_of_elements]].
  - rewrite <- list_fmap_compose. rewrite (list_fmap_ext _ id); [|done]. rewrite list_fmap_id. apply NoDup_elements.
Qed.
Lemma fst_unit (l : list (K * unit)) : map (fun k => (k, tt)) (map fst l) = l.
Proof. induction l as [|[k []] l IH]; cbn; [done|by rewrite IH]. Qed.
Lemma unit_fst (l : list K) : map fst (map (fun k => (k, tt)) l) = l.
Proof. induction l as [|k l IH]; cbn; [done|by rewrite IH]. Qed.
Lemma btreeset_good (ck : codec K) : good ck -> good (c_btreeset cmp ck).
Proof using cmp_eq cmp_anti cmp_trans.
  intros GK. apply conv_good; [by apply vec_good| |].
  - intros s e _. cbn zeta. rewrite fst_unit. rewrite (proj2 (increasing_sorted _)) by apply sorted_entries_ok. f_equal. apply leibniz_equiv. intros k.
    rewrite elem_of_list_to_set, elem_of_list_In, in_map_iff. rewrite <- set_map_lookup, <- elem_of_map_to_list, <- (proj2 (sorted_entries_ok _)).
    split; [intros ([? []] & [= <-] & X); by apply elem_of_list_In|intros X; exists (k, tt); split; [done|by apply elem_of_list_In]].
  - intros l s. cbn zeta. destruct (strictly_increasing cmp _) eqn:I; [|done]. intros [= <-]. apply increasing_sorted in I.
    rewrite <- (unit_fst l) at 2. f_equal. rewrite <- (map_entries (map (fun k => (k, tt)) l) I). f_equal. apply map_eq. intros k. apply option_eq. intros [].
    rewrite set_map_lookup, elem_of_list_to_set, <- elem_of_list_to_map by (by apply sorted_nodup).
    rewrite (elem_of_list_In _ (k, tt)), in_map_iff, elem_of_list_In. split; [intros X; by exists k|by intros (? & [= <-] & X)].
Qed.
End sorted_facts.

(** ** When encoding succeeds *)
Lemma uint_total n x : x < 256 ^ N.of_nat n -> is_Some (enc (c_uint n) x).
Proof. intros L. cbn. destruct (N.ltb_spec x (256 ^ N.of_nat n)); [by eexists|lia]. Qed.
Lemma pair_total {A B} (ca : codec A) (cb : codec B) x y : is_Some (enc ca x) -> is_Some (enc cb y) -> is_Some (enc (c_pair ca cb) (x, y)).
Proof. intros [a Ea] [b Eb]. cbn. rewrite Ea, Eb. by eexists. Qed.
Lemma items_total {A} (c : codec A) l : Forall (fun x => is_Some (enc c x)) l -> is_Some (enc_items c l).
Proof. induction 1 as [|x l [a Ea] _ [b Eb]]; cbn; [by eexists|]. rewrite Ea, Eb. by eexists. Qed.
Lemma vec_total {A} (c : codec A) l : N.of_nat (length l) < 256 ^ 4 -> Forall (fun x => is_Some (enc c x)) l -> is_Some (enc (c_vec c) l).
Proof.
  intros L F. cbn [enc c_vec]. destruct (uint_total 4 _ L) as [a ->]. cbn [mbind option_bind]. destruct (items_total _ _ F) as [b ->]. by eexists.
Qed.
Lemma option_total {A} (c : codec A) o : (forall x, o = Some x -> is_Some (enc c x)) -> is_Some (enc (c_option c) o).
Proof. intros F. destruct o as [x|]; cbn; [|by eexists]. destruct (F x eq_refl) as [e ->]. by eexists. Qed.
