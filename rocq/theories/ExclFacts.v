(** Exclusion proofs on a stored canonical tree (C28-C30 core). *)
From Verif Require Import Base Spec SpecOrder NodeType ProofDef TreeCache Tree Exclusion KeyFacts SmtFacts ProofFacts NodeFacts Canon CanonSib ReadFacts PutFacts KeyOrder OrderFacts.
From Coq Require Import Lia.
Local Opaque Spec.smt.

Lemma only_child_loop_sib (H : list byte -> bytes32) rd nk i n bm : forall hs acc ck s, siblings_loop H rd nk i n true bm hs acc = Ok (ck, s) -> only_child_loop nk i n bm hs = Ok ck.
Proof.
  induction hs as [|h IH]; intros acc ck s E; [done|]. cbn [siblings_loop only_child_loop] in *.
  destruct (build_sibling _ _ _ _ _ _ _) as [x| |]; [rewrite bind_Ok in E|done..].
  destruct (range_bitmaps _ _ _) as [rb| |]; [rewrite !bind_Ok in *|done..].
  destruct (rb.1 =? 0)%N; [by injection E as <- <-|]. cbn [andb negb] in E. destruct (has_only_child h rb.1 rb.2); [|by eapply IH].
  destruct (nib_from_u8 _) as [k| |]; [rewrite !bind_Ok in *|done..]. destruct (in_child i k); cbn [unwrap] in *; [rewrite !bind_Ok in *|done]. by injection E as <- <-.
Qed.
Lemma only_child_sib (H : list byte -> bytes32) rd nk i n ck s : get_only_child_with_siblings H rd nk i n = Ok (ck, s) -> get_only_child_without_siblings nk i n = Ok ck.
Proof.
  unfold get_only_child_with_siblings, get_child_with_siblings_helper, get_only_child_without_siblings.
  destruct (generate_bitmaps i); [rewrite !bind_Ok|done..]. apply only_child_loop_sib.
Qed.

(** directions *)
Definition klt (e : extreme) (x y : key) : Prop := match e with ELeft => key_lt x y | ERight => key_lt y x end.
Definition nlt (e : extreme) (n m : nibble) : Prop := match e with ELeft => nib_lt n m | ERight => nib_lt m n end.
Lemma klt_nib e p n m x y : (p ++ [n]) `prefix_of` key_nibbles x -> (p ++ [m]) `prefix_of` key_nibbles y -> nlt e n m -> klt e x y.
Proof. destruct e; cbn; intros; by eapply key_lt_nib. Qed.
Lemma klt_irrefl e x : ~ klt e x x.
Proof. destruct e; apply key_lt_irrefl. Qed.
Lemma klt_trans e x y z : klt e x y -> klt e y z -> klt e x z.
Proof. destruct e; cbn; [apply key_lt_trans|]. intros A B. by eapply key_lt_trans. Qed.
Lemma nlt_irrefl e n : ~ nlt e n n.
Proof. destruct e; unfold nlt, nib_lt; lia. Qed.
Lemma nlt_total e n m : nlt e n m \/ n = m \/ nlt e m n.
Proof. destruct e; unfold nlt, nib_lt; destruct (N.lt_trichotomy (nib_to_N n) (nib_to_N m)) as [?|[?%nib_to_N_inj|?]]; auto. Qed.
Lemma opp_opp e : opposite (opposite e) = e.
Proof. by destruct e. Qed.
Lemma klt_opp e x y : klt (opposite e) x y <-> klt e y x.
Proof. by destruct e. Qed.
Lemma nlt_opp e n m : nlt (opposite e) n m <-> nlt e m n.
Proof. by destruct e. Qed.

(** children in order *)
Definition cle (a b : nibble * child) : Prop := nib_lt a.1 b.1.
Lemma children_iter_sorted ch : StronglySorted cle (children_iter ch).
Proof.
  unfold children_iter. pose proof all_nibbles_sorted as S. induction S as [|n l S IH F]; [constructor|]. cbn [omap list_omap].
  destruct (ch !! n) as [c|]; cbn; [|done]. constructor; [done|]. apply Forall_forall. intros [n' c'] E.
  apply elem_of_list_omap in E as (n2 & Hn & E2). destruct (ch !! n2); [|done]. injection E2 as <- <-. rewrite Forall_forall in F. by apply F.
Qed.
Lemma elem_of_children_iter ch n c : (n, c) ∈ children_iter ch <-> ch !! n = Some c.
Proof.
  unfold children_iter. rewrite elem_of_list_omap. split.
  - intros (n2 & _ & E). destruct (ch !! n2) eqn:E2; [|done]. cbn in E. by injection E as -> ->.
  - intros E. exists n. split; [apply all_nibbles_complete|]. by rewrite E.
Qed.
Lemma sorted_filter {A} (R : A -> A -> Prop) (P : A -> Prop) `{forall x, Decision (P x)} l : StronglySorted R l -> StronglySorted R (filter P l).
Proof.
  induction 1 as [|a l S IH F]; [constructor|]. rewrite filter_cons. case_decide; [|done]. constructor; [done|].
  rewrite Forall_forall in *. intros x [_ ?]%elem_of_list_filter. by apply F.
Qed.
Lemma sorted_head {A} (R : A -> A -> Prop) l : StronglySorted R l -> match head l with None => l = [] | Some a => a ∈ l /\ forall b, b ∈ l -> b = a \/ R a b end.
Proof.
  intros S. destruct S as [|a l S F]; [done|]. cbn. split; [by left|]. rewrite Forall_forall in F. intros b [->|Hb]%elem_of_cons; auto.
Qed.
Lemma sorted_last {A} (R : A -> A -> Prop) l : StronglySorted R l -> match last l with None => l = [] | Some a => a ∈ l /\ forall b, b ∈ l -> b = a \/ R b a end.
Proof.
  induction l as [|x l _] using rev_ind; [done|]. intros S. rewrite last_snoc. split; [apply elem_of_app; right; by left|].
  intros b Hb. apply elem_of_app in Hb as [Hb|Hb]; [|apply elem_of_list_singleton in Hb; by left]. right.
  clear -S Hb. induction l as [|y l IH]; [by apply elem_of_nil in Hb|]. apply StronglySorted_inv in S as [S F].
  apply elem_of_cons in Hb as [->|Hb]; [|by apply IH]. rewrite Forall_forall in F. apply F. apply elem_of_app. right. by left.
Qed.
Lemma min_or_max_ok i e : in_children i <> ∅ -> exists n, min_or_max i e = Some n /\ is_Some (in_children i !! n) /\
  forall n', is_Some (in_children i !! n') -> n' = n \/ nlt e n n'.
Proof.
  intros Ne. pose proof (children_iter_sorted (in_children i)) as S.
  assert (Ni : children_iter (in_children i) <> []).
  { intros Z. apply map_choose in Ne as (n & c & E). apply elem_of_children_iter in E. rewrite Z in E. by apply elem_of_nil in E. }
  destruct e; cbn [min_or_max nlt].
  - pose proof (sorted_head _ _ S) as P. destruct (head _) as [[n c]|]; [|done]. destruct P as [P1 P2]. exists n. split; [done|].
    apply elem_of_children_iter in P1. split; [by eexists|]. intros n' [c' Ec]. apply elem_of_children_iter in Ec. destruct (P2 _ Ec) as [[= -> ->]|R]; [by left|by right].
  - pose proof (sorted_last _ _ S) as P. destruct (last _) as [[n c]|]; [|done]. destruct P as [P1 P2]. exists n. split; [done|].
    apply elem_of_children_iter in P1. split; [by eexists|]. intros n' [c' Ec]. apply elem_of_children_iter in Ec. destruct (P2 _ Ec) as [[= -> ->]|R]; [by left|by right].
Qed.
Lemma nib_ltb_lt n m : nib_ltb n m = true <-> nib_lt n m.
Proof. unfold nib_ltb, nib_lt. apply N.ltb_lt. Qed.
(** the neighbour in direction [e] of [idx] is the nearest child on that side *)
Lemma neighbor_ok i idx e : match neighbor_nibble i idx e with
  | Some (n, w) => exists c, in_children i !! n = Some c /\ w = c_version c /\ nlt e n idx /\
      forall n', is_Some (in_children i !! n') -> nlt e n' idx -> n' = n \/ nlt e n' n
  | None => forall n', is_Some (in_children i !! n') -> ~ nlt e n' idx end.
Proof.
  destruct e; cbn [neighbor_nibble nlt].
  - pose proof (sorted_last _ _ (sorted_filter cle (fun nc : nibble * child => nib_ltb nc.1 idx = true) _ (children_iter_sorted (in_children i)))) as P.
    destruct (last _) as [[n c]|]; cbn.
    + destruct P as [P1 P2]. apply elem_of_list_filter in P1 as [L P1]. exists c. apply elem_of_children_iter in P1. split; [done|]. split; [done|]. split; [by apply nib_ltb_lt|].
      intros n' [c' Ec] L'. destruct (P2 (n', c')) as [[= -> ->]|R]; [|by left|by right]. apply elem_of_list_filter. split; [by apply nib_ltb_lt|by apply elem_of_children_iter].
    + intros n' [c' Ec] L'. assert (X : (n', c') ∈ filter (fun nc : nibble * child => nib_ltb nc.1 idx = true) (children_iter (in_children i))).
      { apply elem_of_list_filter. split; [by apply nib_ltb_lt|by apply elem_of_children_iter]. } rewrite P in X. by apply elem_of_nil in X.
  - pose proof (sorted_head _ _ (sorted_filter cle (fun nc : nibble * child => nib_ltb idx nc.1 = true) _ (children_iter_sorted (in_children i)))) as P.
    destruct (head _) as [[n c]|]; cbn.
    + destruct P as [P1 P2]. apply elem_of_list_filter in P1 as [L P1]. exists c. apply elem_of_children_iter in P1. split; [done|]. split; [done|]. split; [by apply nib_ltb_lt|].
      intros n' [c' Ec] L'. destruct (P2 (n', c')) as [[= -> ->]|R]; [|by left|by right]. apply elem_of_list_filter. split; [by apply nib_ltb_lt|by apply elem_of_children_iter].
    + intros n' [c' Ec] L'. assert (X : (n', c') ∈ filter (fun nc : nibble * child => nib_ltb idx nc.1 = true) (children_iter (in_children i))).
      { apply elem_of_list_filter. split; [by apply nib_ltb_lt|by apply elem_of_children_iter]. } rewrite P in X. by apply elem_of_nil in X.
Qed.

Section ex.
Context (H : list byte -> bytes32) (M : gmap key vhash) (ver : list nibble -> version) (rd : reader) (v : version).
Context (St : stored H rd M ver v).
Notation int p := (mkInternal (children_of H M ver p) (size (U p M))).

Lemma only_child_canon w p s n k : 2 <= size (U p M) -> (p ++ [n]) `prefix_of` key_nibbles k ->
  exists d ck, 4 * length p < d /\ sib_result M ver p n k d ck /\ get_only_child_without_siblings (w, p) (mkInternal (children_of H M ver p) s) n = Ok ck.
Proof.
  intros Hm Pn. destruct St as [_ K]. destruct (child_with_siblings_canon H (rd_node rd) M ver w p s n k true Hm Pn (K p Hm)) as (d & ck & Hd & SR & E); [done|].
  exists d, ck. split; [done|]. split; [done|]. eapply only_child_sib. exact E.
Qed.
Lemma U_pick p : U p M <> ∅ -> exists k h, U p M !! k = Some h /\ M !! k = Some h /\ p `prefix_of` key_nibbles k.
Proof. intros (k & h & E)%map_choose. exists k, h. split; [done|]. by apply U_lookup. Qed.
Lemma child_present w p s n : 2 <= size (U p M) -> U (p ++ [n]) M <> ∅ ->
  get_only_child_without_siblings (w, p) (mkInternal (children_of H M ver p) s) n = Ok (Some (ver (p ++ [n]), p ++ [n])).
Proof.
  intros Hm Ne. destruct (U_pick _ Ne) as (k & h & _ & Ek & Pk). destruct (only_child_canon w p s n k Hm Pk) as (d & ck & Hd & (D2 & _ & C) & ->). f_equal.
  destruct C as [(Z & _)|[(m & _ & _ & -> & F)|(_ & _ & ->)]]; [|by rewrite F|done].
  exfalso. assert (X : under (kpre d k) M !! k = Some h). 
  { apply under_lookup. split; [done|]. unfold haspre. rewrite kpre_length; [done|]. pose proof (U_many_len _ _ Hm). lia. }
  rewrite Z, lookup_empty in X. done.
Qed.
Lemma int_child p n : is_Some (in_children (int p) !! n) <-> U (p ++ [n]) M <> ∅.
Proof.
  cbn [in_children]. rewrite children_of_lookup. split.
  - intros [c E] Z. apply (child_of_none H M ver p n) in Z. congruence.
  - intros Ne. destruct (child_of_some H M ver p n Ne) as (c & E & _). by eexists.
Qed.
Lemma int_nonempty p : 2 <= size (U p M) -> in_children (int p) <> ∅.
Proof.
  intros Hm. pose proof (U_many_len _ _ Hm) as L. destruct (U_pick p (U_many_ne _ _ Hm)) as (k & h & _ & Ek & Pk).
  destruct (prefix_next p k Pk L) as [n Pn]. assert (X : is_Some (in_children (int p) !! n)).
  { apply int_child. apply U_nonempty. eauto. } intros Z. rewrite Z, lookup_empty in X. by destruct X.
Qed.

Lemma extreme_loop_ok e : forall fuel p depth w, U p M <> ∅ -> 65 <= fuel + length p -> rd_node rd (w, p) = Some (node_at H M ver p) ->
  exists j, extreme_loop rd fuel depth v (w, p) e = Ok j /\ is_Some (M !! j) /\ p `prefix_of` key_nibbles j /\
    forall j', is_Some (M !! j') -> p `prefix_of` key_nibbles j' -> j' = j \/ klt e j j'.
Proof.
  induction fuel as [|f IH]; intros p depth w Ne Lf Rd; [apply U_len in Ne; lia|].
  cbn [extreme_loop]. rewrite Rd. cbn [ok_or]. rewrite bind_Ok.
  destruct (size_cases (U p M)) as [E|[(k & h & E)|Hm]]; [done| |].
  - rewrite (node_at_leaf H M ver p k h E). exists k. cbn [ln_key]. split; [done|].
    assert (X : U p M !! k = Some h) by (rewrite E; apply lookup_singleton). apply U_lookup in X as [X1 X2]. split; [by eexists|]. split; [done|].
    intros j' [h' Ej] Pj. left. assert (X : U p M !! j' = Some h') by by apply U_lookup. rewrite E in X. by apply lookup_singleton_Some in X as [-> _].
  - rewrite node_at_internal by done. destruct (min_or_max_ok (int p) e (int_nonempty p Hm)) as (n & -> & Hn & Min). cbn [unwrap]. rewrite bind_Ok.
    apply int_child in Hn. rewrite child_present, bind_Ok by done.
    destruct (IH (p ++ [n]) (S depth) (ver (p ++ [n])) Hn) as (j & -> & Ij & Pj & Mj).
    { rewrite app_length. cbn. lia. } { destruct St as [_ K]. by apply K. }
    exists j. split; [done|]. split; [done|]. split; [by eapply prefix_snoc_l|].
    intros j' Ij' Pj'. destruct (prefix_next p j' Pj') as [n' Pn']; [by apply U_many_len in Hm|].
    destruct (Min n') as [->|L].
    + apply int_child, U_nonempty. destruct Ij' as [h' ?]. eauto.
    + by apply Mj.
    + right. by eapply klt_nib.
Qed.

(** the keys of M on side [e] of the path [q] *)
Definition beside (e : extreme) (q : list nibble) (j : key) : Prop :=
  exists p n n', (p ++ [n]) `prefix_of` q /\ (p ++ [n']) `prefix_of` key_nibbles j /\ nlt e n' n.
Fixpoint ints (q : list nibble) (pre : list nibble) : list internal_node :=
  match q with [] => [] | n :: q' => int pre :: ints q' (pre ++ [n]) end.
Lemma ints_snoc q : forall pre n, ints (q ++ [n]) pre = ints q pre ++ [int (pre ++ q)].
Proof. induction q as [|x q IH]; intros pre n; cbn [app ints]; [by rewrite app_nil_r|]. rewrite IH, <- app_assoc. done. Qed.
Definition chained (q : list nibble) : Prop := forall p n, (p ++ [n]) `prefix_of` q -> 2 <= size (U p M).
Lemma prefix_snoc_cases {A} (p : list A) a q b : (p ++ [a]) `prefix_of` (q ++ [b]) -> (p = q /\ a = b) \/ (p ++ [a]) `prefix_of` q.
Proof.
  intros [r E]. destruct r as [|x r _] using rev_ind.
  - rewrite app_nil_r in E. apply app_inj_tail in E as [-> ->]. by left.
  - rewrite app_assoc in E. apply app_inj_tail in E as [-> _]. right. by eexists.
Qed.
Lemma closest_ok e q : chained q -> exists r, search_closest_extreme_node rd v e q (ints q []) = Ok r /\
  match r with
  | None => forall j, is_Some (M !! j) -> ~ beside e q j
  | Some j => is_Some (M !! j) /\ beside e q j /\ forall j', is_Some (M !! j') -> beside e q j' -> j' = j \/ klt e j' j
  end.
Proof.
  unfold search_closest_extreme_node. induction q as [|n p IH] using rev_ind; intros Ch.
  - exists None. split; [done|]. intros j _ (p & n & n' & P & _). apply prefix_nil_inv in P. by destruct p.
  - rewrite ints_snoc, !rev_app_distr. cbn [rev app closest_loop]. pose proof (neighbor_ok (int p) n e) as Nb.
    assert (Hm : 2 <= size (U p M)) by (apply (Ch p n); done).
    assert (Chp : chained p). { intros p' n' P. apply (Ch p' n'). by apply prefix_app_r. }
    destruct (neighbor_nibble _ n e) as [[nb w]|].
    + destruct Nb as (c & Ec & -> & L & Min). rewrite rev_involutive.
      assert (Ne : U (p ++ [nb]) M <> ∅) by (apply int_child; by eexists).
      cbn [in_children] in Ec. rewrite children_of_lookup in Ec.
      destruct (child_of_some H M ver p nb Ne) as (c' & Ec' & _ & Ev & _). rewrite Ec in Ec'. injection Ec' as <-. rewrite Ev.
      destruct (extreme_loop_ok (opposite e) (65 - length (p ++ [nb])) (p ++ [nb]) (length (p ++ [nb])) (ver (p ++ [nb])) Ne) as (j & E & Ij & Pj & Mj).
      { lia. } { destruct St as [_ K]. by apply K. }
      unfold get_extreme_key_hash. rewrite E, bind_Ok. exists (Some j). split; [done|]. split; [done|]. split.
      { exists p, n, nb. done. }
      intros j' Ij' (p' & x & x' & P1 & P2 & L2). apply prefix_snoc_cases in P1 as [[-> ->]|P1].
      * destruct (Min x') as [->|L3]; [|done| |].
        -- apply int_child, U_nonempty. destruct Ij'. eauto.
        -- destruct (Mj j' Ij' P2) as [?|K]; [by left|]. right. by apply klt_opp.
        -- right. by eapply klt_nib.
      * right. eapply (klt_nib e p' x' x); [done| |done]. etransitivity; [exact P1|]. by eapply prefix_snoc_l.
    + destruct (IH Chp) as (r & E & Sp). exists r. rewrite E. split; [done|].
      assert (Eq : forall j, is_Some (M !! j) -> beside e (p ++ [n]) j <-> beside e p j).
      { intros j Ij. split.
        - intros (p' & x & x' & P1 & P2 & L2). apply prefix_snoc_cases in P1 as [[-> ->]|P1]; [|by exists p', x, x'].
          exfalso. apply (Nb x'); [|done]. apply int_child, U_nonempty. destruct Ij. eauto.
        - intros (p' & x & x' & P1 & P2 & L2). exists p', x, x'. split; [by apply prefix_app_r|done]. }
      destruct r as [j|].
      * destruct Sp as (Ij & Bj & Mj). split; [done|]. split; [by apply Eq|]. intros j' Ij' B. apply Mj; [done|]. by apply Eq.
      * intros j Ij B. apply (Sp j Ij). by apply Eq.
Qed.

(** a path of the key [k]: the keys beside it are those before / after [k] *)
Lemma beside_klt e q k j : q `prefix_of` key_nibbles k -> beside e q j -> klt e j k.
Proof. intros P (p & n & n' & P1 & P2 & L). eapply klt_nib; [exact P2| |exact L]. by etransitivity. Qed.
Lemma first_diff {A} (dec : forall x y : A, Decision (x = y)) (q l : list A) : length q <= length l -> ~ q `prefix_of` l -> exists p n n', (p ++ [n]) `prefix_of` q /\ (p ++ [n']) `prefix_of` l /\ n <> n'.
Proof.
  revert l. induction q as [|x q IH]; intros l L Np; [destruct Np; apply prefix_nil|]. destruct l as [|y l]; [cbn in L; lia|].
  destruct (dec x y) as [->|Ne].
  - destruct (IH l) as (p & n & n' & P1 & P2 & Hn); [cbn in L; lia|intros P; apply Np; by apply prefix_cons|].
    exists (y :: p), n, n'. split; [by apply prefix_cons|]. split; [by apply prefix_cons|done].
  - exists [], x, y. split; [by exists q|]. split; [by exists l|done].
Qed.
Lemma klt_beside e q k j : q `prefix_of` key_nibbles k -> ~ q `prefix_of` key_nibbles j -> klt e j k -> beside e q j.
Proof.
  intros P Np L. destruct (first_diff _ q (key_nibbles j)) as (p & n & n' & P1 & P2 & Ne); [rewrite key_nibbles_length; by eapply prefix_len_64|done|].
  exists p, n, n'. split; [done|]. split; [done|]. destruct (nlt_total e n' n) as [?|[->|L']]; [done|done|]. exfalso. apply (klt_irrefl e j).
  eapply klt_trans; [exact L|]. eapply klt_nib; [|exact P2|exact L']. by etransitivity.
Qed.
Lemma lone_order e d k k' j : d <= 256 -> kpre d k' = kpre d k -> kpre d j <> kpre d k -> klt e j k -> klt e j k'.
Proof.
  intros Ld E Ne. destruct e; cbn [klt]; rewrite !key_lt_iff; intros (i & Li & P & B1 & B2).
  - assert (Lid : i < d). { destruct (Nat.lt_ge_cases i d); [done|]. destruct Ne. by eapply kpre_le. }
    exists i. split; [done|]. rewrite P. split; [symmetry; eapply kpre_le; [|exact E]; lia|]. split; [done|]. rewrite <- B2. eapply kpre_bit; [exact Lid|done|done].
  - assert (Lid : i < d). { destruct (Nat.lt_ge_cases i d); [done|]. destruct Ne. symmetry. by eapply kpre_le. }
    exists i. split; [done|]. rewrite <- P. split; [eapply kpre_le; [|exact E]; lia|]. split; [|done]. rewrite <- B1. eapply kpre_bit; [exact Lid|done|done].
Qed.

Definition search_spec (k : key) (r : search_result) : Prop :=
  (exists q, q `prefix_of` key_nibbles k /\ chained q /\ U q M = ∅ /\ r = FoundInternal q (ints q [])) \/
  (exists q k' h d, q `prefix_of` key_nibbles k /\ chained q /\ d <= 4 * length q /\ under (kpre d k) M = {[ k' := h ]} /\
     r = FoundLeaf (key_compare k' k) k' q (ints q [])).
Lemma search_loop_leaf k rem q nk k' h : rd_node rd nk = Some (Leaf (LeafNode k' h)) ->
  search_loop rd k v rem q nk (ints q []) = Ok (FoundLeaf (key_compare k' k) k' q (ints q [])).
Proof. intros E. destruct rem; cbn [search_loop]; rewrite E; reflexivity. Qed.
Lemma search_loop_ok k : forall rem p w, key_nibbles k = p ++ rem -> rd_node rd (w, p) = Some (node_at H M ver p) -> chained p -> U p M <> ∅ ->
  exists r, search_loop rd k v rem p (w, p) (ints p []) = Ok r /\ search_spec k r.
Proof.
  induction rem as [|n rem IH]; intros p w Ek Rd Ch Ne.
  all: assert (Pp : p `prefix_of` key_nibbles k) by (rewrite Ek; by eexists).
  all: destruct (size_cases (U p M)) as [E|[(k' & h & E)|Hm]]; [done| |].
  1,3: rewrite (node_at_leaf H M ver p k' h E) in Rd; eexists; split; [by eapply search_loop_leaf|]; right; exists p, k', h, (4 * length p);
    split; [done|]; split; [done|]; split; [done|]; split; [by rewrite kpre_bits|done].
  { apply U_many_len in Hm. apply (f_equal length) in Ek. rewrite key_nibbles_length, app_length in Ek. cbn in Ek. lia. }
  assert (Pn : (p ++ [n]) `prefix_of` key_nibbles k) by (rewrite Ek; exists rem; by rewrite <- app_assoc).
  assert (Chn : chained (p ++ [n])). { intros p' n' P. apply prefix_snoc_cases in P as [[-> _]|P]; [done|by eapply Ch]. }
  cbn [search_loop]. rewrite Rd, node_at_internal by done. cbn [ok_or]. rewrite bind_Ok.
  destruct (only_child_canon w p (size (U p M)) n k Hm Pn) as (d & ck & Hd & (D2 & _ & C) & ->). rewrite bind_Ok.
  assert (Ein : ints p [] ++ [int p] = ints (p ++ [n]) []) by (by rewrite ints_snoc). rewrite Ein.
  destruct C as [(Z & ->)|[(m & S1 & Eu & -> & _)|(_ & Hm2 & ->)]].
  - eexists. split; [done|]. left. exists (p ++ [n]). split; [done|]. split; [done|]. split; [|done].
    apply map_empty. intros j. destruct (U (p ++ [n]) M !! j) as [x|] eqn:Ej; [|done]. exfalso. apply U_lookup in Ej as [Ej Pj].
    assert (X : under (kpre d k) M !! j = Some x). 
    { apply under_lookup. split; [done|]. assert (X : kpre (4 * length (p ++ [n])) j = kpre (4 * length (p ++ [n])) k) by (by rewrite !kpre_bits).
      unfold haspre. assert (Ld : d <= 256) by (pose proof (prefix_len_64 _ _ Pn); rewrite app_length in *; cbn in *; lia).
      rewrite kpre_length by done. eapply kpre_le; [|exact X]. rewrite app_length. cbn. lia. }
    rewrite Z, lookup_empty in X. done.
  - destruct (size_one_inv _ S1) as (k' & h & E). assert (Nm : U (p ++ [m]) M <> ∅) by (rewrite Eu, E; apply single_ne).
    eexists. split.
    + apply search_loop_leaf with (h := h). destruct St as [_ K]. rewrite (K p Hm m Nm). by rewrite (node_at_leaf H M ver _ k' h) by (by rewrite Eu).
    + right. exists (p ++ [n]), k', h, d. split; [done|]. split; [done|]. split; [rewrite app_length; cbn; lia|done].
  - apply IH; [by rewrite <- app_assoc| |done|by apply U_many_ne]. destruct St as [_ K]. apply K; [done|by apply U_many_ne].
Qed.

(** neighbours, as the specification has them, in one direction *)
Definition nearest (e : extreme) (k : key) (r : option key) : Prop :=
  match r with
  | None => forall j, is_Some (M !! j) -> ~ klt e j k
  | Some j => is_Some (M !! j) /\ klt e j k /\ forall j', is_Some (M !! j') -> klt e j' k -> j' = j \/ klt e j' j
  end.
Lemma closest_nearest e q k : q `prefix_of` key_nibbles k -> chained q -> (forall j, is_Some (M !! j) -> klt e j k -> ~ q `prefix_of` key_nibbles j) ->
  exists r, search_closest_extreme_node rd v e q (ints q []) = Ok r /\ nearest e k r.
Proof.
  intros P Ch Np. destruct (closest_ok e q Ch) as (r & E & Sp). exists r. split; [done|]. destruct r as [j|]; cbn [nearest].
  - destruct Sp as (Ij & Bj & Mj). split; [done|]. split; [by eapply beside_klt|]. intros j' Ij' L. apply Mj; [done|]. eapply klt_beside; [done|by apply Np|done].
  - intros j Ij L. apply (Sp j Ij). eapply klt_beside; [done|by apply Np|done].
Qed.
Lemma bounding_ok k : M !! k = None -> M <> ∅ -> exists l r, get_bounding_path rd k v = Ok (l, r) /\ nearest ELeft k l /\ nearest ERight k r.
Proof.
  intros Hk Ne. unfold get_bounding_path, search_for_closest_node.
  destruct (search_loop_ok k (key_nibbles k) [] v) as (r & E & Sp); [done|apply St| |by rewrite U_nil|].
  { intros p n P. apply prefix_nil_inv in P. by destruct p. }
  cbn [ints] in E. unfold nk_root. rewrite E, bind_Ok. destruct Sp as [(q & Pq & Ch & Z & ->)|(q & k' & h & d & Pq & Ch & Ld & Z & ->)].
  - assert (Np : forall j, is_Some (M !! j) -> ~ q `prefix_of` key_nibbles j).
    { intros j [x Ej] Pj. assert (X : U q M !! j = Some x) by by apply U_lookup. rewrite Z, lookup_empty in X. done. }
    destruct (closest_nearest ERight q k Pq Ch) as (r & -> & Nr); [auto|]. rewrite bind_Ok.
    destruct (closest_nearest ELeft q k Pq Ch) as (l & -> & Nl); [auto|]. rewrite bind_Ok. eauto.
  - pose proof (prefix_len_64 _ _ Pq) as Lq. assert (Ld' : d <= 256) by lia.
    assert (X : under (kpre d k) M !! k' = Some h) by (rewrite Z; apply lookup_singleton). apply under_lookup in X as [Ik' X].
    unfold haspre in X. rewrite kpre_length in X by done.
    assert (Nk : k' <> k) by (intros ->; congruence).
    assert (Only : forall j, is_Some (M !! j) -> j <> k' -> kpre d j <> kpre d k).
    { intros j [x Ej] Nj Ej2. assert (Y : under (kpre d k) M !! j = Some x). { apply under_lookup. split; [done|]. unfold haspre. by rewrite kpre_length. }
      rewrite Z in Y. by apply lookup_singleton_Some in Y as [-> _]. }
    assert (Np : forall j, is_Some (M !! j) -> j <> k' -> ~ q `prefix_of` key_nibbles j).
    { intros j Ij Nj Pj. apply (Only j Ij Nj). assert (Y : kpre (4 * length q) j = kpre (4 * length q) k) by (by rewrite !kpre_bits). eapply kpre_le; [exact Ld|exact Y]. }
    assert (One : forall e, klt e k' k -> nearest e k (Some k')).
    { intros e L. split; [by eexists|]. split; [done|]. intros j Ij Lj. destruct (decide (j = k')) as [|Nj]; [by left|]. right. eapply lone_order; [exact Ld'|done|by apply Only|done]. }
    assert (Np' : forall e, klt (opposite e) k' k -> forall j, is_Some (M !! j) -> klt e j k -> ~ q `prefix_of` key_nibbles j).
    { intros e L j Ij Lj. apply Np; [done|]. intros ->. apply klt_opp in L. rewrite opp_opp in L. eapply klt_irrefl, klt_trans; [exact L|exact Lj]. }
    destruct (key_compare k' k) eqn:Ec.
    + by apply key_compare_eq in Ec.
    + destruct (closest_nearest ERight q k Pq Ch) as (r & -> & Nr); [by apply Np'|]. rewrite bind_Ok. eexists _, _. split; [done|]. split; [by apply One|done].
    + assert (L : key_lt k k') by (unfold key_lt; by rewrite key_compare_antisym, Ec).
      destruct (closest_nearest ELeft q k Pq Ch) as (l & -> & Nl); [by apply Np'|]. rewrite bind_Ok. eexists _, _. split; [done|]. split; [done|by apply One].
Qed.
End ex.
