(** C38: the ranges of the nibble range iterator partition a sorted list of keys by their next nibble. *)
From Verif Require Import Base Spec SpecOrder KeyFacts Canon KeyOrder OrderFacts NibblePath NibbleFacts ThmNode ThmNibble NibbleRange.
From Coq Require Import Lia.
Local Open Scope nat_scope.

(** *** Specification.  The list is the concatenation of non-empty groups, one per nibble value, in increasing
    order of that nibble; the iterator yields the first and last index of each group. *)
Notation group := (nibble * list (key * vhash))%type (only parsing).
Definition grouped (kvs : list (key * vhash)) (idx : nat) (gs : list group) : Prop :=
  kvs = flat_map snd gs /\ StronglySorted nib_lt gs.*1 /\
  forall n g, (n, g) ∈ gs -> g <> [] /\ forall kv, kv ∈ g -> key_nibbles kv.1 !! idx = Some n.
Fixpoint spans (o : nat) (gs : list group) : list (nat * nat) :=
  match gs with
  | [] => []
  | g :: gs' => (o, o + length g.2 - 1) :: spans (o + length g.2) gs'
  end.

Lemma kv_nibble_ok kvs idx i kv n : kvs !! i = Some kv -> key_nibbles kv.1 !! idx = Some n -> kv_nibble kvs idx i = Ok (nib_to_N n).
Proof. intros E F. unfold kv_nibble. rewrite E. cbn [unwrap mbind outcome_bind]. by rewrite C37_key_nibble, F. Qed.
(** the search: indices [.. e] carry nibble at most [cur], later ones more *)
Lemma search_ok kvs idx cur e rounds : forall i j,
  (forall t, i <= t -> t <= e -> exists n, kv_nibble kvs idx t = Ok n /\ (n <= cur)%N) ->
  (forall t, e < t -> t <= j -> exists n, kv_nibble kvs idx t = Ok n /\ (cur < n)%N) ->
  i <= e -> e <= j -> j - i < rounds -> nri_search rounds kvs idx cur i j = Ok e.
Proof.
  induction rounds as [|r IH]; intros i j Lo Hi L1 L2 L3; [lia|]. cbn [nri_search]. destruct (i <? j) eqn:E.
  - apply Nat.ltb_lt in E. assert (D : 1 <= j - i) by lia. assert (D2 : (j - i) / 2 < j - i) by (apply Nat.div_lt; lia).
    set (mid := j - (j - i) / 2) in *. destruct (decide (mid <= e)) as [M|M].
    + destruct (Lo mid) as (n & -> & Ln); [lia|done|]. cbn [mbind outcome_bind]. rewrite (proj2 (N.ltb_ge _ _) Ln). apply IH; [|done|done|done|lia].
      intros t T1 T2. apply Lo; lia.
    + destruct (Hi mid) as (n & -> & Ln); [lia|lia|]. cbn [mbind outcome_bind]. rewrite (proj2 (N.ltb_lt _ _) Ln). rewrite (proj2 (Nat.leb_le _ _)) by lia. cbn [assert_ mbind outcome_bind].
      apply IH; [done| |done|lia|lia]. intros t T1 T2. apply Hi; lia.
  - apply Nat.ltb_ge in E. f_equal. lia.
Qed.
Lemma flat_snd_elem kv (gs : list group) : kv ∈ flat_map snd gs -> exists n g, (n, g) ∈ gs /\ kv ∈ g.
Proof. intros E%elem_of_list_In. apply in_flat_map in E as ([n g] & A & B). exists n, g. by rewrite !elem_of_list_In. Qed.
Lemma drain_ok idx gs : forall kvs pre rounds, kvs = pre ++ flat_map snd gs -> StronglySorted nib_lt gs.*1 ->
  (forall n g, (n, g) ∈ gs -> g <> [] /\ forall kv, kv ∈ g -> key_nibbles kv.1 !! idx = Some n) ->
  length gs < rounds -> nri_drain_loop rounds (NRI kvs idx (length pre)) = Ok (spans (length pre) gs).
Proof.
  induction gs as [|[n g] gs IH]; intros kvs pre rounds Ek S G L; (destruct rounds as [|r]; [cbn [length] in L; lia|]); cbn [nri_drain_loop].
  - unfold nri_next. cbn [nri_pos nri_kvs]. rewrite Ek, app_nil_r, Nat.ltb_irrefl. done.
  - cbn [fmap list_fmap] in S. apply StronglySorted_inv in S as [S F]. rewrite Forall_forall in F.
    destruct (G n g) as [Ng Gg]; [by left|]. cbn [flat_map snd] in Ek.
    assert (Lg : 0 < length g) by (destruct g; [done|cbn; lia]).
    assert (Lk : length kvs = length pre + length g + length (flat_map snd gs)) by (rewrite Ek, !app_length; lia).
    assert (In : forall t, length pre <= t -> t <= length pre + length g - 1 -> kv_nibble kvs idx t = Ok (nib_to_N n)).
    { intros t T1 T2. destruct (lookup_lt_is_Some_2 g (t - length pre)) as [kv Ekv]; [lia|].
      apply (kv_nibble_ok kvs idx t kv); [|apply Gg, elem_of_list_lookup; eauto]. rewrite Ek, lookup_app_r by lia. rewrite lookup_app_l by lia. done. }
    assert (Out : forall t, length pre + length g - 1 < t -> t <= length kvs - 1 -> exists m, kv_nibble kvs idx t = Ok m /\ (nib_to_N n < m)%N).
    { intros t T1 T2. destruct (lookup_lt_is_Some_2 (flat_map snd gs) (t - length pre - length g)) as [kv Ekv]; [lia|].
      destruct (flat_snd_elem kv gs) as (m & g' & I1 & I2); [apply elem_of_list_lookup; eauto|].
      exists (nib_to_N m). split; [|apply F; by apply (elem_of_list_fmap_1 fst _ (m, g'))].
      apply (kv_nibble_ok kvs idx t kv); [|eapply G; [right; exact I1|done]]. rewrite Ek, lookup_app_r by lia. rewrite lookup_app_r by lia. done. }
    unfold nri_next. cbn [nri_pos nri_kvs nri_idx]. rewrite (proj2 (Nat.ltb_lt _ _)) by lia. rewrite In by lia. cbn [mbind outcome_bind].
    rewrite (search_ok kvs idx (nib_to_N n) (length pre + length g - 1)); [|intros t T1 T2; rewrite In by lia; eauto using N.le_refl|exact Out|lia|lia|lia].
    cbn [mbind outcome_bind fst snd]. replace (length pre + length g - 1 + 1) with (length (pre ++ g)) by (rewrite app_length; lia).
    rewrite (IH kvs (pre ++ g) r); [|by rewrite <- app_assoc|done|intros; apply G; by right|cbn [length] in L; lia].
    cbn [mbind outcome_bind spans snd]. by rewrite app_length.
Qed.
Lemma groups_le kvs idx gs : grouped kvs idx gs -> length gs <= length kvs.
Proof.
  intros (-> & _ & G). induction gs as [|[n g] gs IH]; [done|]. cbn [flat_map snd length]. rewrite app_length.
  destruct (G n g) as [Ng _]; [by left|]. specialize (IH ltac:(intros; apply G; by right)). destruct g; [done|cbn [length]; lia].
Qed.
(** any grouping of the list is what the iterator yields *)
Lemma ranges_of_groups kvs idx gs : idx < 64 -> grouped kvs idx gs -> nri_ranges kvs idx = Ok (spans 0 gs).
Proof.
  intros L G. unfold nri_ranges, nri_new, ROOT_NIBBLE_HEIGHT. rewrite (proj2 (Nat.ltb_lt _ _) L). cbn [assert_ mbind outcome_bind].
  pose proof (groups_le _ _ _ G). destruct G as (E & S & G). apply (drain_ok idx gs kvs [] _ E S G). lia.
Qed.
(** a list with non-decreasing nibbles has a grouping *)
Definition nib_of (idx : nat) (kv : key * vhash) : nibble := default zero_nibble (key_nibbles kv.1 !! idx).
Fixpoint groups (idx : nat) (kvs : list (key * vhash)) : list group :=
  match kvs with
  | [] => []
  | kv :: kvs' =>
      match groups idx kvs' with
      | (n, g) :: gs => if decide (n = nib_of idx kv) then (n, kv :: g) :: gs else (nib_of idx kv, [kv]) :: (n, g) :: gs
      | [] => [(nib_of idx kv, [kv])]
      end
  end.
Lemma groups_ok idx kvs : idx < 64 -> StronglySorted (fun a b => (nib_to_N (nib_of idx a) <= nib_to_N (nib_of idx b))%N) kvs -> grouped kvs idx (groups idx kvs).
Proof.
  intros L. assert (Nb : forall kv, key_nibbles kv.1 !! idx = Some (nib_of idx kv)).
  { intros kv. unfold nib_of. destruct (lookup_lt_is_Some_2 (key_nibbles kv.1) idx) as [n ->]; [by rewrite key_nibbles_length|done]. }
  induction 1 as [|kv kvs S IH F]; [split; [done|]; split; [constructor|]; intros n g Z; by apply elem_of_nil in Z|].
  destruct IH as (E & Sg & G). cbn [groups]. rewrite Forall_forall in F.
  assert (Single : forall n g, (n, g) = (nib_of idx kv, [kv]) -> g <> [] /\ forall x, x ∈ g -> key_nibbles x.1 !! idx = Some n).
  { intros n g [= -> ->]. split; [done|]. intros x ->%elem_of_list_singleton. apply Nb. }
  destruct (groups idx kvs) as [|[n g] gs] eqn:Eg.
  - cbn in E. subst kvs. split; [done|]. split; [repeat constructor|]. intros n g I%elem_of_list_singleton. by apply Single.
  - assert (Hd : forall x, x ∈ g -> nib_of idx x = n).
    { intros x Hx. destruct (G n g) as [_ Q]; [by left|]. specialize (Q x Hx). rewrite Nb in Q. by injection Q. }
    cbn [fmap list_fmap fst] in Sg. apply StronglySorted_inv in Sg as [Sg Fg]. case_decide as D.
    + split; [cbn; by rewrite E|]. split; [cbn [fmap list_fmap fst]; by constructor|]. intros n' g' [[= -> ->]|I]%elem_of_cons; [|apply G; by right].
      split; [done|]. intros x [->|Hx]%elem_of_cons; [by rewrite Nb, D|]. rewrite Nb. f_equal. by apply Hd.
    + split; [cbn; by rewrite E|]. split.
      * assert (Lt : nib_lt (nib_of idx kv) n).
        { destruct (G n g) as [Ng _]; [by left|]. destruct g as [|x g]; [done|]. specialize (Hd x ltac:(by left)).
          assert (Le : (nib_to_N (nib_of idx kv) <= nib_to_N n)%N) by (rewrite <- Hd; apply F; rewrite E; by left).
          unfold nib_lt. apply N.le_lteq in Le as [?|Q]; [done|]. apply nib_to_N_inj in Q. congruence. }
        cbn [fmap list_fmap fst]. constructor; [by constructor|]. constructor; [done|]. eapply Forall_impl; [exact Fg|]. intros m Hm. unfold nib_lt in *. cbv beta in Hm. lia.
      * intros n' g' [I|I]%elem_of_cons; [by apply Single|by apply G].
Qed.
Lemma key_le_nib idx a b : idx < 64 -> take idx (key_nibbles a.1) = take idx (key_nibbles b.1) -> key_le a.1 b.1 ->
  (nib_to_N (nib_of idx a) <= nib_to_N (nib_of idx b))%N.
Proof.
  intros L E [Ab|Lt]; [unfold nib_of; rewrite Ab; reflexivity|]. destruct (N.le_gt_cases (nib_to_N (nib_of idx a)) (nib_to_N (nib_of idx b))) as [?|G]; [done|]. exfalso.
  assert (P : forall k : key * vhash, (take idx (key_nibbles k.1) ++ [nib_of idx k]) `prefix_of` key_nibbles k.1).
  { intros k. unfold nib_of. destruct (lookup_lt_is_Some_2 (key_nibbles k.1) idx) as [n En]; [by rewrite key_nibbles_length|]. rewrite En. cbn [default]. cbv beta iota delta [id].
    exists (drop (Datatypes.S idx) (key_nibbles k.1)). rewrite <- app_assoc. cbn [app]. symmetry. by apply take_drop_middle. }
  pose proof (P a) as Pa. rewrite E in Pa. eapply key_lt_irrefl, key_lt_trans; [exact Lt|]. eapply key_lt_nib; [apply P|exact Pa|done].
Qed.
(** For every list of pairs sorted by key (repeated keys allowed) whose keys agree before nibble [idx]: the iterator
    neither panics nor loops, and its ranges are the groups of the list by that nibble. *)
Theorem C38_partition kvs idx : idx < 64 -> StronglySorted (fun a b => key_le a.1 b.1) kvs ->
  (forall a b, a ∈ kvs -> b ∈ kvs -> take idx (key_nibbles a.1) = take idx (key_nibbles b.1)) ->
  exists gs, grouped kvs idx gs /\ nri_ranges kvs idx = Ok (spans 0 gs).
Proof.
  intros L S E. exists (groups idx kvs). assert (G : grouped kvs idx (groups idx kvs)); [|split; [done|by apply ranges_of_groups]].
  apply groups_ok; [done|]. induction S as [|a l S IH F]; constructor.
  - apply IH. intros; apply E; by right.
  - rewrite Forall_forall in *. intros b Hb. apply key_le_nib; [done| |by apply F]. apply E; [by left|by right].
Qed.
(** The grouping is unique. *)
Theorem C38_unique kvs idx gs gs' : grouped kvs idx gs -> grouped kvs idx gs' -> gs = gs'.
Proof.
  intros (E & S & G) (E' & S' & G'). rewrite E in E'. clear E. revert gs' S' G' E'. induction gs as [|[n g] gs IH]; intros [|[n' g'] gs'] S' G' E'.
  - done.
  - destruct (G' n' g') as [Q _]; [by left|]. cbn in E'. by destruct g'.
  - destruct (G n g) as [Q _]; [by left|]. cbn in E'. by destruct g.
  - cbn [flat_map snd fmap list_fmap fst] in *. apply StronglySorted_inv in S as [S F], S' as [S' F']. rewrite Forall_forall in F, F'.
    destruct (G n g) as [Ng Gg]; [by left|]. destruct (G' n' g') as [Ng' Gg']; [by left|].
    assert (n = n') as <-.
    { destruct g as [|x g], g' as [|x' g']; try done. cbn in E'. injection E' as <- _. specialize (Gg x ltac:(by left)). specialize (Gg' x ltac:(by left)). congruence. }
    assert (Cut : forall (g1 g2 : list (key * vhash)) (r1 r2 : list group), g1 ++ flat_map snd r1 = g2 ++ flat_map snd r2 ->
      (forall x, x ∈ g2 -> key_nibbles x.1 !! idx = Some n) ->
      (forall m g, (m, g) ∈ r1 -> nib_lt n m /\ forall x, x ∈ g -> key_nibbles x.1 !! idx = Some m) -> length g2 <= length g1).
    { intros g1 g2 r1 r2 E1 Q2 R1. destruct (decide (length g2 <= length g1)) as [?|N]; [done|]. exfalso.
      destruct (lookup_lt_is_Some_2 g2 (length g1)) as [x Ex]; [lia|]. pose proof (f_equal (.!! length g1) E1) as E2. cbv beta in E2.
      rewrite lookup_app_r, Nat.sub_diag, lookup_app_l in E2 by lia. rewrite Ex in E2.
      destruct (flat_snd_elem x r1) as (m & g0 & I1 & I2); [apply elem_of_list_lookup; eauto|]. destruct (R1 m g0 I1) as [Lt Q]. specialize (Q x I2).
      rewrite (Q2 x) in Q; [|apply elem_of_list_lookup; eauto]. injection Q as ->. unfold nib_lt in Lt. lia. }
    assert (Eq : length g = length g').
    { apply Nat.le_antisymm.
      - eapply (Cut g' g gs' gs); [done|done|]. intros m g0 I. split; [apply F'; by apply (elem_of_list_fmap_1 fst _ (m, g0))|]. apply (G' m g0). by right.
      - eapply (Cut g g' gs gs'); [done|done|]. intros m g0 I. split; [apply F; by apply (elem_of_list_fmap_1 fst _ (m, g0))|]. apply (G m g0). by right. }
    apply app_inj_1 in E' as [-> E']; [|done]. f_equal. apply IH; [done|intros; apply G; by right|done|intros; apply G'; by right|done].
Qed.
Definition key_of_first (b : byte) : key := B32 (b :: repeat x00 31) eq_refl.
Example demo_ranges : nri_ranges (map (fun b => (key_of_first b, key_of_first b)) [x00; x05; x0f; x10; xa0; xa1]) 0 = Ok [(0, 2); (3, 3); (4, 5)].
Proof. vm_compute. reflexivity. Qed.
(** Keys that do not agree before the nibble break the partition: the search then skips groups. *)
Example demo_ranges_disagree : nri_ranges (map (fun b => (key_of_first b, key_of_first b)) [x0f; x10; x11]) 1 = Ok [(0, 2)].
Proof. vm_compute. reflexivity. Qed.
