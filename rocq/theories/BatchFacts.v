(** The batch algorithm: groups, the loop, and the creation of fresh subtrees. *)
From Verif Require Import Base Spec SpecOrder NodeType ProofDef TreeCache Tree NibbleRange BatchTree KeyFacts SmtFacts ProofFacts NodeFacts Canon CanonSib ReadFacts PutFacts InsertFacts InsertInt KeyOrder OrderFacts NibblePath ThmNode ThmNibble ThmNibbleRange.
From Coq Require Import Lia.
Local Opaque Spec.smt.

(** ** groups of the entries below a path *)
Definition gs_of {A} (p : list nibble) (m : gmap key A) : list (nibble * list (key * A)) :=
  omap (fun n => match entries (U (p ++ [n]) m) with [] => None | g => Some (n, g) end) all_nibbles.
Lemma entries_nil {A} (m : gmap key A) : entries m = [] <-> m = ∅.
Proof.
  split; [|intros ->; apply entries_empty]. intros E. apply map_empty. intros k. apply eq_None_not_Some. intros [x Ex%entries_elem].
  rewrite E in Ex. by apply elem_of_nil in Ex.
Qed.
Lemma gs_elem {A} p (m : gmap key A) n g : (n, g) ∈ gs_of p m <-> U (p ++ [n]) m <> ∅ /\ g = entries (U (p ++ [n]) m).
Proof.
  unfold gs_of. rewrite elem_of_list_omap. split.
  - intros (n' & _ & E). rewrite <- entries_nil. destruct (entries (U (p ++ [n']) m)) eqn:En; [done|]. injection E as <- <-. by rewrite En.
  - intros [Ne ->]. exists n. split; [apply all_nibbles_complete|]. rewrite <- entries_nil in Ne. by destruct (entries (U (p ++ [n]) m)).
Qed.
Lemma gs_fst {A} p (m : gmap key A) n : n ∈ (gs_of p m).*1 <-> U (p ++ [n]) m <> ∅.
Proof.
  rewrite elem_of_list_fmap. split; [intros ([n' g] & -> & [? _]%gs_elem); done|]. intros Ne. exists (n, entries (U (p ++ [n]) m)). split; [done|]. by apply gs_elem.
Qed.
Lemma gs_sorted {A} p (m : gmap key A) : StronglySorted nib_lt (gs_of p m).*1.
Proof.
  unfold gs_of. pose proof all_nibbles_sorted as S. induction S as [|n l S IH F]; [constructor|]. cbn [omap list_omap].
  destruct (entries (U (p ++ [n]) m)); [done|]. cbn [fmap list_fmap]. constructor; [done|]. rewrite Forall_forall in *. intros n' I. apply F.
  apply elem_of_list_fmap in I as ([a b] & -> & I). apply elem_of_list_omap in I as (n2 & I & E). destruct (entries (U (p ++ [n2]) m)); [done|]. injection E as <- _. done.
Qed.
Lemma sorted_nodup (l : list nibble) : StronglySorted nib_lt l -> NoDup l.
Proof.
  induction 1 as [|n l S IH F]; constructor; [|done]. intros I. rewrite Forall_forall in F. specialize (F _ I). unfold nib_lt in F. lia.
Qed.
Lemma gs_grouped p (m : gmap key vhash) : length p < 64 -> grouped (entries (U p m)) (length p) (gs_of p m).
Proof.
  intros L. split; [|split; [apply gs_sorted|]].
  - rewrite entries_U by done. unfold gs_of. induction all_nibbles as [|n l IH]; [done|]. cbn [flat_map omap list_omap].
    destruct (entries (U (p ++ [n]) m)) as [|a g] eqn:E; cbn [flat_map snd app]; by rewrite IH.
  - intros n g [Ne ->]%gs_elem. split; [by rewrite entries_nil|]. intros [k x] [_ [r E]]%entries_elem%U_lookup. cbn [fst]. rewrite E.
    rewrite lookup_app_l by (rewrite app_length; cbn; lia). by rewrite lookup_app_r, Nat.sub_diag by lia.
Qed.

(** ** the loop *)
Section loop.
Context (H : list byte -> bytes32) (v : version).
Lemma loop_ok kvs depth hc body (I : list group -> children -> bool -> cache -> Prop) gs :
  (forall n g, (n, g) ∈ gs -> g <> [] /\ forall kv, kv ∈ g -> key_nibbles kv.1 !! depth = Some n) ->
  (forall dn n g todo ch fl c, gs = dn ++ (n, g) :: todo -> I dn ch fl c ->
     exists nk nd fl' c' h t, body n g fl c = Ok (nk, nd, fl', c') /\ get_hash H nk nd hc = Ok h /\ node_node_type nd = Ok t /\
       I (dn ++ [(n, g)]) (<[n := Child h v t]> ch) fl' c') ->
  forall todo dn pre ch fl c, gs = dn ++ todo -> kvs = pre ++ flat_map snd todo -> I dn ch fl c ->
  exists ch' fl' c', batch_loop H v kvs depth hc body (spans (length pre) todo) ch fl c = Ok (ch', fl', c') /\ I gs ch' fl' c'.
Proof.
  intros G Step. induction todo as [|[n g] todo IH]; intros dn pre ch fl c Eg Ek Hi; cbn [spans batch_loop].
  - rewrite app_nil_r in Eg. subst dn. by exists ch, fl, c.
  - destruct (G n g) as [Ng Gg]; [rewrite Eg; apply elem_of_app; right; left|]. cbn [flat_map snd] in *.
    destruct g as [|kv g]; [done|]. set (gg := kv :: g) in *.
    assert (Lg : 0 < length gg) by (cbn; lia).
    replace (kvs !! length pre) with (Some kv) by (rewrite Ek, lookup_app_r, Nat.sub_diag by lia; done). cbn [unwrap]. rewrite bind_Ok.
    rewrite get_nibble_lookup, (Gg kv) by by left. cbn [unwrap]. rewrite bind_Ok.
    assert (Sl : slice_incl kvs (length pre) (length pre + length gg - 1) = Ok gg).
    { unfold slice_incl. rewrite (proj2 (Nat.leb_le _ _)) by lia. rewrite (proj2 (Nat.ltb_lt _ _)) by (rewrite Ek, !app_length; lia). cbn [andb assert_]. rewrite bind_Ok. f_equal.
      rewrite Ek, drop_app. replace (length pre + length gg - 1 + 1 - length pre) with (length gg) by lia. apply take_app. }
    rewrite Sl, bind_Ok. destruct (Step dn n gg todo ch fl c Eg Hi) as (nk & nd & fl' & c' & h & t & E1 & E2 & E3 & I'). rewrite E1, bind_Ok. cbv beta iota zeta.
    rewrite E2, bind_Ok, E3, bind_Ok.
    replace (length pre + length gg) with (length (pre ++ gg)) by by rewrite app_length.
    apply (IH (dn ++ [(n, gg)])); [by rewrite <- app_assoc|by rewrite <- app_assoc|done].
Qed.
Lemma loop_groups kvs depth hc body (I : list group -> children -> bool -> cache -> Prop) gs ch c fl : depth < 64 -> grouped kvs depth gs ->
  (forall dn n g todo ch fl c, gs = dn ++ (n, g) :: todo -> I dn ch fl c ->
     exists nk nd fl' c' h t, body n g fl c = Ok (nk, nd, fl', c') /\ get_hash H nk nd hc = Ok h /\ node_node_type nd = Ok t /\
       I (dn ++ [(n, g)]) (<[n := Child h v t]> ch) fl' c') ->
  I [] ch fl c ->
  exists rs ch' fl' c', nri_ranges kvs depth = Ok rs /\ batch_loop H v kvs depth hc body rs ch fl c = Ok (ch', fl', c') /\ I gs ch' fl' c'.
Proof.
  intros L G Step Hi. exists (spans 0 gs). pose proof (ranges_of_groups _ _ _ L G) as E. destruct G as (Ek & _ & G).
  destruct (loop_ok kvs depth hc body I gs G Step gs [] [] ch fl c) as (ch' & fl' & c' & E' & I'); [done|done|done|]. by exists ch', fl', c'.
Qed.
End loop.

(** ** building a subtree where there is none *)
Section build.
Context (H : list byte -> bytes32) (rd : reader) (v : version).
Implicit Types (m K : gmap key vhash) (p q : list nibble).
Definition cv (q : list nibble) : version := v.
Definition fresh p (c : cache) : Prop := forall w q, p `prefix_of` q -> tc_nodes c !! (w, q) = None.
Definition framed p (c c' : cache) : Prop :=
  (forall w q, ~ p `prefix_of` q -> tc_nodes c' !! (w, q) = tc_nodes c !! (w, q)) /\ tc_stale c' = tc_stale c /\ rest c' = rest c /\ cnt_ok rd c'.
Definition built p m (c c' : cache) : Prop :=
  (forall w q nd, p `prefix_of` q -> tc_nodes c' !! (w, q) = Some nd <-> w = v /\ lv p q m /\ nd = node_at H m cv q) /\ framed p c c'.
(** some of the children are built *)
Definition parts p m (D : list nibble) (c c' : cache) : Prop :=
  (forall w q nd, p `prefix_of` q -> tc_nodes c' !! (w, q) = Some nd <-> w = v /\ (exists n, n ∈ D /\ lv (p ++ [n]) q m) /\ nd = node_at H m cv q) /\ framed p c c'.
(** a given hash cache holds the right hashes of the nodes properly below [p] that have a key of [K] below them *)
Definition hc_good (hc : option (gmap (list nibble) bytes32)) p m K : Prop :=
  match hc with
  | None => True
  | Some t => forall q, p `prefix_of` q -> q <> p -> U q K <> ∅ -> 2 <= size (U (parent q) m) -> t !! q = Some (ms H (bits q) m)
  end.
Lemma hc_sub hc p n m K : hc_good hc p m K -> hc_good hc (p ++ [n]) m K.
Proof.
  destruct hc as [t|]; [|done]. cbn. intros G q Hq Nq. apply G; [by eapply prefix_app_l|]. intros ->. by apply prefix_snoc_self in Hq.
Qed.
Lemma hc_shrink hc p m K K' : (forall q, p `prefix_of` q -> U q K' = U q K) -> hc_good hc p m K -> hc_good hc p m K'.
Proof. destruct hc as [t|]; [|done]. intros E G q Hq Nq Ne. apply G; [done|done|]. by rewrite <- E. Qed.
Lemma hc_get hc p n m K ver : hc_good hc p m K -> 2 <= size (U p m) -> U (p ++ [n]) K <> ∅ ->
  get_hash H (v, p ++ [n]) (node_at H m ver (p ++ [n])) hc = Ok (ms H (bits (p ++ [n])) m).
Proof.
  intros G Hm Ne. unfold get_hash. destruct hc as [t|]; [|apply node_hash_canon]. cbn [nk_path snd]. rewrite G; [done|by eexists| |done|by rewrite parent_snoc].
  intros E. apply (f_equal length) in E. rewrite app_length in E. cbn in E. lia.
Qed.
Lemma framed_refl p c : cnt_ok rd c -> framed p c c.
Proof. done. Qed.
Lemma parts_nil p m c : fresh p c -> cnt_ok rd c -> parts p m [] c c.
Proof. intros F C. split; [|done]. intros w q nd Hq. rewrite F by done. split; [done|]. intros (_ & (n & E & _) & _). by apply elem_of_nil in E. Qed.
Lemma lv_child_of p n q m : lv (p ++ [n]) q m -> (p ++ [n]) `prefix_of` q.
Proof. by intros [? _]. Qed.
Lemma prefix_two p n n' q : (p ++ [n]) `prefix_of` q -> (p ++ [n']) `prefix_of` q -> n = n'.
Proof. intros A B. destruct (prefix_weak_total _ _ _ A B) as [W|W]; apply prefix_snoc_cons in W; congruence. Qed.
Lemma parts_fresh p m D c c' n : parts p m D c c' -> n ∉ D -> fresh (p ++ [n]) c'.
Proof.
  intros [P _] Hn w q Hq. destruct (tc_nodes c' !! (w, q)) as [nd|] eqn:E; [|done]. exfalso. apply P in E as (_ & (n' & Hn' & L) & _); [|by eapply prefix_app_l].
  apply lv_child_of in L. pose proof (prefix_two _ _ _ _ Hq L). congruence.
Qed.
Lemma parts_step p m D c c1 c2 n : parts p m D c c1 -> built (p ++ [n]) m c1 c2 -> n ∉ D -> parts p m (D ++ [n]) c c2.
Proof.
  intros [P (F1 & F2 & F3 & F4)] [B (G1 & G2 & G3 & G4)] Hn. split; [|split_and!; [|congruence|congruence|done]].
  - intros w q nd Hq. destruct (decide ((p ++ [n]) `prefix_of` q)) as [Hq'|Hq'].
    + rewrite B by done. split.
      * intros (-> & L & ->). split; [done|]. split; [|done]. exists n. split; [apply elem_of_app; right; by left|done].
      * intros (-> & (n' & Hn' & L) & ->). split; [done|]. split; [|done]. pose proof (prefix_two _ _ _ _ Hq' (lv_child_of _ _ _ _ L)) as ->. done.
    + rewrite G1, P by done. split; intros (-> & (n' & Hn' & L) & ->); (split; [done|]); (split; [|done]); exists n'; (split; [|done]).
      * apply elem_of_app; by left.
      * apply elem_of_app in Hn' as [?|Hn'%elem_of_list_singleton]; [done|]. subst n'. by apply lv_child_of in L.
  - intros w q Hq. rewrite G1, F1; [done|done|]. intros W. apply Hq. by eapply prefix_app_l.
Qed.
(** the leaf *)
Lemma build_leaf p m k h c : U p m = {[ k := h ]} -> fresh p c -> cnt_ok rd c ->
  exists c', cache_put_node c (v, p) (Leaf (LeafNode k h)) = Ok c' /\ built p m c c'.
Proof.
  intros E F C. destruct (put_ok rd c (v, p) (Leaf (LeafNode k h))) as (c' & P1 & P2 & P3 & P4 & P5); [by apply F|done|]. exists c'. split; [done|].
  split; [|split_and!; [|done|done|done]].
  - intros w q nd Hq. rewrite P2, lv_small by (rewrite E, map_size_singleton; done). split.
    + intros [[[= <- <-] <-]|[_ Z]]%lookup_insert_Some; [|by rewrite F in Z]. split; [done|]. split; [|by rewrite (node_at_leaf H _ _ _ k h)]. split; [done|]. rewrite E. apply single_ne.
    + intros (-> & [-> _] & ->). rewrite (node_at_leaf H _ _ _ k h) by done. by rewrite lookup_insert.
  - intros w q Hq. rewrite P2, lookup_insert_ne; [done|]. intros [= _ <-]. by apply Hq.
Qed.
(** the internal node above its children *)
Lemma build_internal p m D ch c c1 : 2 <= size (U p m) -> parts p m D c c1 -> (forall n, n ∈ D <-> U (p ++ [n]) m <> ∅) ->
  (forall n, n ∈ D -> ch !! n = child_of H m cv p n) -> (forall n, n ∉ D -> ch !! n = None) ->
  exists c', internal_new ch = Ok (mkInternal (children_of H m cv p) (size (U p m))) /\
    cache_put_node c1 (v, p) (node_at H m cv p) = Ok c' /\ built p m c c'.
Proof.
  intros Hm [P (F1 & F2 & F3 & F4)] HD C1 C2.
  assert (Ec : ch = children_of H m cv p).
  { apply children_ext. intros n. rewrite children_of_lookup. destruct (decide (n ∈ D)) as [I|I]; [by apply C1|]. rewrite C2 by done. symmetry. apply child_of_none.
    destruct (decide (U (p ++ [n]) m = ∅)) as [|Ne]; [done|]. exfalso. by apply I, HD. }
  assert (Fr : tc_nodes c1 !! (v, p) = None).
  { destruct (tc_nodes c1 !! (v, p)) as [nd|] eqn:E; [|done]. exfalso. apply P in E as (_ & (n & _ & L) & _); [|done]. apply lv_child_of in L. by apply prefix_snoc_self in L. }
  destruct (put_ok rd c1 (v, p) (node_at H m cv p) Fr F4) as (c' & P1 & P2 & P3 & P4 & P5).
  exists c'. split; [rewrite Ec; by apply internal_new_canon|]. split; [done|]. split; [|split_and!; [|congruence|congruence|done]].
  - intros w q nd Hq. rewrite P2. split.
    + intros [[[= <- <-] <-]|[N E]]%lookup_insert_Some; [split; [done|]; split; [|done]; apply lv_self; by apply U_many_ne|].
      apply P in E as (-> & (n & Hn & L) & ->); [|done]. split; [done|]. split; [|done]. apply (lv_child p n q m Hm); [by apply lv_child_of in L|done].
    + intros (-> & L & ->). destruct (path_cases p q Hq) as [->|(n & r & ->)]; [by rewrite lookup_insert|].
      rewrite lookup_insert_ne; [|intros [= E]; apply (f_equal length) in E; rewrite app_length in E; cbn in E; lia].
      apply P; [done|]. split; [done|]. split; [|done]. exists n. pose proof L as (_ & Ne & _). assert (Hq' : (p ++ [n]) `prefix_of` (p ++ n :: r)) by apply prefix_snoc_in.
      split; [|by apply (lv_child p n _ m Hm Hq')]. apply HD. apply (U_app_ne (p ++ [n]) r). by rewrite <- app_assoc.
  - intros w q Hq. rewrite P2, lookup_insert_ne; [by apply F1|]. intros [= _ <-]. by apply Hq.
Qed.
Lemma many_cases {A} (m : gmap key A) : 2 <= size m -> forall a, entries m <> [a].
Proof. intros Hm a E. pose proof (entries_length m) as L. rewrite E in L. cbn in L. lia. Qed.
Lemma entries_cases {A B} (m : gmap key A) (f : key -> A -> B) (d : B) : 2 <= size m -> match entries m with [(k, x)] => f k x | _ => d end = d.
Proof. intros Hm. pose proof (many_cases m Hm) as N. destruct (entries m) as [|[k x] [|? ?]]; [done| |done]. exfalso. by eapply N. Qed.
Lemma not_in_done {A} dn (n : nibble) (g : A) todo (gs : list (nibble * A)) : NoDup gs.*1 -> gs = dn ++ (n, g) :: todo -> n ∉ dn.*1.
Proof. intros ND ->. rewrite fmap_app in ND. apply NoDup_app in ND as (_ & X & _). intros I. apply (X n I). by left. Qed.

Lemma create_subtree_ok m : forall rem p hc c, length p + rem = 64 -> U p m <> ∅ -> fresh p c -> cnt_ok rd c -> hc_good hc p m m ->
  exists c', batch_create_subtree H rem (v, p) v (entries (U p m)) (length p) hc c = Ok (v, p, node_at H m cv p, c') /\ built p m c c'.
Proof.
  induction rem as [|rem IH]; intros p hc c Lr Ne F C G.
  all: destruct (size_cases (U p m)) as [E|[(k & h & E)|Hm]]; [done| |].
  1, 3: destruct (build_leaf p m k h c E F C) as (c' & P & B); exists c'; split; [|done]; rewrite E, entries_single; cbn [batch_create_subtree]; rewrite P, bind_Ok; by rewrite (node_at_leaf H _ _ _ k h).
  { exfalso. apply U_many_len in Hm. lia. }
  pose proof (U_many_len _ _ Hm) as Lp. cbn [batch_create_subtree]. rewrite entries_cases by done.
  set (body := fun n sub (flag : bool) c => _).
  pose (I := fun (dn : list group) (ch : children) (fl : bool) (c1 : cache) => parts p m dn.*1 c c1 /\
     (forall n, n ∈ dn.*1 -> ch !! n = child_of H m cv p n) /\ (forall n, n ∉ dn.*1 -> ch !! n = None)).
  pose proof (sorted_nodup _ (gs_sorted p m)) as ND.
  destruct (loop_groups H v (entries (U p m)) (length p) hc body I (gs_of p m) ∅ c false Lp (gs_grouped p m Lp)) as (rs & ch & fl & c1 & R1 & R2 & P & C1 & C2).
  - intros dn n g todo ch fl c1 Eg (P & C1 & C2). assert (Hn : n ∉ dn.*1) by (by eapply not_in_done).
    assert (Ig : (n, g) ∈ gs_of p m) by (rewrite Eg; apply elem_of_app; right; by left). apply gs_elem in Ig as [Nn ->].
    destruct (IH (p ++ [n]) hc c1) as (c2 & E2 & B2); [rewrite app_length; cbn; lia|done|by eapply parts_fresh|apply P|by apply hc_sub|].
    destruct (node_type_canon H m cv p n Nn) as (t & Et & Ec).
    exists (v, p ++ [n]), (node_at H m cv (p ++ [n])), fl, c2, (ms H (bits (p ++ [n])) m), t. split; [|split; [by eapply hc_get|split; [done|]]].
    + unfold body, gen_child. cbn [snd]. rewrite app_length, Nat.add_1_r in E2. rewrite E2, bind_Ok. done.
    + unfold I. rewrite fmap_app. cbn [fmap list_fmap fst]. split; [by eapply parts_step|]. split; intros n' Hn'.
      * destruct (decide (n' = n)) as [->|]; [by rewrite lookup_insert|]. rewrite lookup_insert_ne by done. apply C1.
        apply elem_of_app in Hn' as [?|?%elem_of_list_singleton]; done.
      * rewrite not_elem_of_app, elem_of_list_singleton in Hn'. destruct Hn'. rewrite lookup_insert_ne by done. by apply C2.
  - split; [by apply parts_nil|]. split; [intros n Z; by apply elem_of_nil in Z|done].
  - destruct (build_internal p m _ ch c c1 Hm P (gs_fst p m) C1 C2) as (c' & N1 & N2 & B). exists c'. split; [|done].
    rewrite R1, bind_Ok, R2, bind_Ok. cbv beta iota zeta. rewrite N1, bind_Ok. rewrite node_at_internal in N2 by done. rewrite N2, bind_Ok. by rewrite node_at_internal.
Qed.
End build.
