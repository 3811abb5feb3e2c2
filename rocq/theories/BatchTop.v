(** batch_put_value_sets gives the same result as put_value_sets. *)
From Verif Require Import Base Spec SpecOrder NodeType ProofDef TreeCache Tree NibbleRange BatchTree KeyFacts SmtFacts ProofFacts NodeFacts Canon CanonSib ReadFacts PutFacts InsertFacts InsertInt PutTop VersionFacts KeyOrder OrderFacts BatchFacts BatchLeaf BatchInsert.
From Coq Require Import Lia.
Local Opaque Spec.smt.

Definition ins (s : list (key * value)) : list (key * option value) := map (fun kx => (kx.1, Some kx.2)) s.
Definition smap (s : list (key * value)) : gmap key value := fold_left (fun m kx => <[ kx.1 := kx.2 ]> m) s ∅.
Lemma smap_snoc s kx : smap (s ++ [kx]) = <[ kx.1 := kx.2 ]> (smap s).
Proof. unfold smap. by rewrite fold_left_app. Qed.
Lemma smap_lookup s k : smap s !! k = match last_write (ins s) k with Some x => x | None => None end.
Proof.
  induction s as [|kx s IH] using rev_ind; [done|]. unfold ins in *. rewrite smap_snoc, map_app. cbn [map]. rewrite last_write_snoc. cbn [fst snd].
  case_decide as E; [by rewrite E, lookup_insert|]. by rewrite lookup_insert_ne.
Qed.
Lemma last_write_ins s k : last_write (ins s) k = Some <$> smap s !! k.
Proof.
  induction s as [|kx s IH] using rev_ind; [done|]. unfold ins in *. rewrite smap_snoc, map_app. cbn [map]. rewrite last_write_snoc. cbn [fst snd].
  case_decide as E; [by rewrite E, lookup_insert|]. by rewrite lookup_insert_ne.
Qed.
Lemma last_write_entries (m : gmap key value) k : last_write (ins (entries m)) k = Some <$> m !! k.
Proof.
  rewrite last_write_ins. f_equal.
  assert (G : forall l, NoDup l.*1 -> (forall kx, kx ∈ l -> m !! kx.1 = Some kx.2) -> (forall k x, smap l !! k = Some x <-> (k, x) ∈ l)).
  { intros l. induction l as [|[k0 x0] l IH] using rev_ind; intros ND E k' x'; [split; [done|by intros ?%elem_of_nil]|].
    rewrite fmap_app in ND. apply NoDup_app in ND as (ND & Dj & _). rewrite smap_snoc, elem_of_app, elem_of_list_singleton, lookup_insert_Some, IH; [|done|intros; apply E, elem_of_app; by left]. cbn [fst snd].
    split; [intros [[-> ->]|[? ?]]; [by right|by left]|]. intros [I|[= -> ->]]; [|by left]. destruct (decide (k0 = k')) as [<-|]; [|by right]. exfalso. apply (Dj k0); [|by left]. apply elem_of_list_fmap. by exists (k0, x'). }
  apply option_eq. intros x. rewrite G; [apply entries_elem|apply entries_nodup|]. intros [k' x'] I. by apply entries_elem in I.
Qed.
Lemma entries_fmap {A B} (f : A -> B) (m : gmap key A) : entries (f <$> m) = map (fun kx => (kx.1, f kx.2)) (entries m).
Proof.
  symmetry. apply entries_unique.
  - pose proof (entries_sorted m) as S. induction S as [|a l S IH F]; [constructor|]. cbn [map]. constructor; [done|]. apply List.Forall_forall. intros b I%elem_of_list_In. rewrite List.Forall_forall in F.
    apply elem_of_list_fmap in I as ([k x] & -> & I). apply elem_of_list_In, F in I. unfold elt in *. done.
  - intros k x. rewrite elem_of_list_fmap, lookup_fmap_Some. split.
    + intros ([k' x'] & [= -> ->] & I). apply entries_elem in I. eauto.
    + intros (x' & <- & E). exists (k, x'). split; [done|]. by apply entries_elem.
Qed.

Section top.
Context (H : list byte -> bytes32).
Implicit Types (M K : gmap key vhash) (s : list (key * value)).
Notation T0 := (T0 H).

(** ** one batch into the tree *)
Lemma batch_root rd v M0 ver0 r0 a c K hc : BaseOK H rd v M0 ver0 r0 c -> VInv H rd v M0 ver0 r0 a c -> K <> ∅ ->
  (a_map a = ∅ -> cache_node rd c (tc_root c) = Some Null) -> hc_good H hc [] (K ∪ a_map a) K ->
  exists nd c', batch_insert_at H rd 64 (tc_root c) v (entries K) 0 hc c = Ok (v, [], nd, c') /\
    VInv H rd v M0 ver0 r0 (ATree (K ∪ a_map a) (updK v K (a_map a) (a_ver a)) true) (cache_set_root c' (v, [])) /\ rest2 c' = rest2 c.
Proof.
  intros BO V Nk Rt G. destruct a as [M ver ch]. cbn [a_map a_ver] in *.
  assert (UN : forall M : gmap key vhash, U [] M = M) by (intros; apply U_nil).
  assert (Nm' : K ∪ M <> ∅) by (intros E; apply Nk; by apply map_positive_l in E).
  assert (B0 : Base0 rd v (T0 M0 ver0) c) by (by eapply base0_of).
  assert (Vr : updK v K M ver [] = v) by (apply updK_in; by rewrite UN).
  destruct (decide (M = ∅)) as [->|Ne].
  - specialize (Rt eq_refl).
    assert (exists r c1, tc_root c = (r, []) /\ (if (r =? v)%N then cache_delete_node c (r, []) false else Ok c) = Ok c1 /\ tc_nodes c1 = ∅ /\
      (forall x, x ∈ tc_stale c1 <-> is_Some (T0 M0 ver0 x)) /\ rest c1 = rest c /\ cnt_ok rd c1) as (r & c1 & Er & D & D1 & D2 & D3 & D4).
    { destruct V as (V1 & V2 & V). cbn [a_ch a_map a_ver] in V. destruct ch.
      - destruct V as [Er [(? & _)|(_ & En & Es)]]; [done|]. exists v. rewrite Er, N.eqb_refl in *.
        destruct En as [En|En]; [rewrite cache_node_out in Rt by (by rewrite En, lookup_empty); destruct BO as [B1 _]; rewrite B1 in Rt; done|].
        destruct (delete_ok rd c (v, []) Null Rt) as (c1 & X1 & X2 & X3 & X4 & X5); [rewrite En, lookup_singleton; done|done|].
        exists c1. split; [done|]. split; [done|]. split; [rewrite X2, En; apply delete_singleton|]. split; [|done]. intros x. rewrite X3, Es, En, lookup_singleton. naive_solver.
      - destruct V as (<- & <- & Er & En & Es). exists r0, c. split; [done|]. destruct BO as (_ & _ & _ & B4 & _). rewrite (proj2 (N.eqb_neq r0 v)) by done. split; [done|]. split; [done|]. split; [|done].
        intros [w q]. rewrite Es, T0_is. split; [by intros ?%elem_of_empty|]. intros [L _]. by apply lv_nil_M in L. }
    assert (Fr : fresh [] c1) by (intros w q _; rewrite D1; apply lookup_empty).
    rewrite (right_id_L ∅ (∪)) in G, Nm' |- *.
    destruct (create_subtree_ok H rd v K 64 [] hc c1) as (c' & E & B); [done|by rewrite UN|done|done|done|].
    rewrite UN in E. exists (node_at H K (cv v) []), c'. split.
    + rewrite Er in *. cbn [batch_insert_at]. assert (As : assert_ (match entries K with [] => false | _ => true end) = Ok tt) by
        (rewrite <- entries_nil in Nk; destruct (entries K); done).
      rewrite As, bind_Ok. unfold cache_get_node. rewrite Rt. cbn [ok_or]. rewrite bind_Ok. cbn [nk_path snd]. rewrite bool_decide_true by done. cbn [negb]. cbv iota. unfold nk_version. cbn [fst]. rewrite D, bind_Ok. exact E.
    + pose proof B as [_ (F1 & F2 & F3 & F4)]. split.
      * split; [by eapply cnt_ext|]. split; [destruct V as (_ & V & _); unfold rest in *; cbn; congruence|]. cbn [a_ch a_map a_ver]. split; [done|]. left. split; [done|]. split; [done|].
        eapply inv_ext; [| |eapply (built_inv H rd v (T0 M0 ver0) [] K _ c c1 c' K); [exact B0| |exact B|done|]]; [done|done| |].
        -- intros w q _. split; [by rewrite D1|]. apply D2.
        -- intros q _. apply updK_new. rewrite U_empty, map_size_empty. lia.
      * apply rest_rest2. congruence.
  - assert (exists r, tc_root c = (r, []) /\ ver [] = r /\ Inv H v (T0 M0 ver0) [] M ver c) as (r & Er & Evr & I).
    { destruct V as (_ & _ & V). destruct ch; cbn in V.
      - destruct V as [E [(_ & E2 & I)|[? _]]]; [|done]. eauto.
      - destruct V as (-> & -> & E & En & Es). exists r0. split; [done|]. split; [by apply BO|]. apply inv_start; [|done|done].
        intros q L. by apply BO in L as [? _]. }
    destruct (insert_at_ok H rd v (T0 M0 ver0) K M (K ∪ M) ver (updK v K M ver) eq_refl eq_refl 64 [] hc c) as (c' & E & PI & PO & PR & PC);
      [done|by rewrite UN|by rewrite UN|done|done|by apply V|done|].
    rewrite UN, Evr in E. rewrite Er. eexists _, c'. split; [exact E|]. split; [|by apply rest_rest2 in PR].
    split; [by eapply cnt_ext|]. split; [destruct V as (_ & V & _); unfold rest in PR; cbn; congruence|].
    cbn [a_ch a_map a_ver]. split; [done|]. left. split; [done|]. split; [done|]. done.
Qed.

(** ** the same tree as by single insertions *)
Lemma ins_snoc s kx : ins (s ++ [kx]) = ins s ++ [(kx.1, Some kx.2)].
Proof. unfold ins. by rewrite map_app. Qed.
Lemma aset_snoc v a (s : list (key * option value)) w : aset H v a (s ++ [w]) = astep v (aset H v a s) (w.1, H <$> w.2).
Proof. unfold aset. by rewrite fold_left_app. Qed.
Lemma aset_ins v s : forall a, s <> [] -> let a' := aset H v a (ins s) in let K := H <$> smap s in
  a_ch a' = true /\ a_map a' = K ∪ a_map a /\ forall q, a_ver a' q = updK v K (a_map a) (a_ver a) q.
Proof.
  intros a. induction s as [|[k x] s IH] using rev_ind; [done|]. intros _. rewrite smap_snoc. cbn [fst snd]. rewrite ins_snoc, aset_snoc. cbn [fst snd fmap option_fmap option_map].
  unfold astep. cbn [fst snd].
  rewrite decide_False by (intros [? _]; done). cbn [a_ch a_map a_ver apply_vh]. split; [done|].
  destruct (decide (s = [])) as [->|Ns].
  - cbn [ins map aset fold_left]. unfold smap. cbn [fold_left]. rewrite insert_empty, map_fmap_singleton. split; [by rewrite insert_union_singleton_l|].
    intros q. unfold upd, updK. destruct (decide (q `prefix_of` key_nibbles k)) as [P|P].
    + rewrite decide_False; [done|]. rewrite U_single_in by done. apply single_ne.
    + rewrite (decide_True (P := U q _ = ∅)); [done|]. by rewrite U_single_out.
  - destruct (IH Ns) as (_ & Em & Ev). rewrite fmap_insert, Em. split; [by rewrite insert_union_l|].
    intros q. unfold upd. rewrite Ev. set (K := H <$> smap s). destruct (decide (q `prefix_of` key_nibbles k)) as [P|P].
    + rewrite updK_in; [done|]. rewrite U_insert_in by done. apply insert_non_empty.
    + assert (EU : U q (<[k:=H x]> K) = U q K) by exact (U_apply_out q K k (Some (H x)) P). unfold updK. rewrite EU. destruct (decide (U q K = ∅)) as [Z|Z].
      * destruct (decide (2 <= size (U (parent q) (a_map a)))) as [S|S]; destruct (decide (2 <= size (U (parent q) (K ∪ a_map a)))) as [S'|S']; try done.
        exfalso. apply S'. etransitivity; [exact S|]. rewrite U_union, <- !size_dom. apply subseteq_size. set_solver.
      * by destruct (decide _).
Qed.

(** ** the cache is determined by the tree *)
Lemma vinv_unique rd v M0 ver0 r0 a a' c c' : VInv H rd v M0 ver0 r0 a c -> VInv H rd v M0 ver0 r0 a' c' ->
  a_ch a = true -> a_ch a' = true -> a_map a <> ∅ -> a_map a = a_map a' -> (forall q, a_ver a q = a_ver a' q) -> rest2 c = rest2 c' -> c = c'.
Proof.
  intros (C1 & N1 & V1) (C2 & N2 & V2) H1 H2 Ne Em Ev Er. rewrite H1 in V1. rewrite H2 in V2.
  destruct V1 as [R1 [(_ & _ & I1)|[? _]]]; [|done]. destruct V2 as [R2 [(_ & _ & I2)|[? _]]]; [|congruence].
  assert (I3 : Inv H v (T0 M0 ver0) [] (a_map a') (a_ver a') c). { eapply inv_change; [| |exact I1]; [intros q _; by rewrite Em|done]. }
  assert (En : tc_nodes c = tc_nodes c').
  { apply map_eq. intros [w q]. apply option_eq. intros nd. destruct I3 as [I3 _], I2 as [I2 _]. rewrite I3, I2 by apply prefix_nil. done. }
  assert (Es : tc_stale c = tc_stale c').
  { apply set_eq. intros [w q]. destruct I3 as (_ & I3 & _), I2 as (_ & I2 & _). rewrite I3, I2 by apply prefix_nil. done. }
  assert (Eb : base rd c = base rd c') by (by apply base_rest2).
  apply cache_ext; [|done|done| |].
  - unfold rest. unfold rest2 in Er. congruence.
  - destruct C1 as [-> _], C2 as [-> _]. by rewrite En.
  - destruct C1 as [_ ->], C2 as [_ ->]. by rewrite Es, Eb.
Qed.
(** values *)
Lemma put_values_eq v l : forall c, put_values v l c = mkCache (tc_root c) (tc_next c) (tc_nodes c) (vset v (ins l) (tc_values c)) (tc_new_leaves c)
  (tc_stale c) (tc_stale_leaves c) (fz_nodes c) (fz_values c) (fz_stale c) (fz_stats c) (fz_roots c).
Proof. induction l as [|[k x] l IH]; intros c; [by destruct c|]. unfold put_values in *. cbn [fold_left ins map vset fst snd]. rewrite IH. done. Qed.
Lemma vset_collect v s vals : vset v (ins (btree_collect s)) vals = vset v (ins s) vals.
Proof.
  apply map_eq. intros [w k]. rewrite !vset_lookup. unfold btree_collect. fold (smap s). by rewrite last_write_entries, last_write_ins.
Qed.
Lemma smap_ne s : s <> [] -> smap s <> ∅.
Proof. destruct s as [|kx s _] using rev_ind; [done|]. intros _. rewrite smap_snoc. apply insert_non_empty. Qed.

Lemma batch_set_same rd v M0 ver0 r0 a c s hc : BaseOK H rd v M0 ver0 r0 c -> VInv H rd v M0 ver0 r0 a c -> s <> [] ->
  (a_map a = ∅ -> cache_node rd c (tc_root c) = Some Null) -> hc_good H hc [] (mset H (a_map a) (ins s)) (H <$> smap s) ->
  batch_set H rd v s hc c = (c ← put_set H rd v (ins s) c; cache_freeze H rd c).
Proof.
  intros BO V Ns Rt G. pose proof (smap_ne s Ns) as Nk.
  destruct (put_set_canon H rd v M0 ver0 r0 (ins s) a c BO V) as (_ & c1 & E1 & _ & V1 & R1 & T1 & _).
  destruct (aset_ins v s a Ns) as (A1 & A2 & A3).
  set (c0 := put_values v (btree_collect s) c). pose proof (put_values_eq v (btree_collect s) c) as Ec0. fold c0 in Ec0.
  assert (Eb : base rd c = base rd c0) by (rewrite Ec0; done).
  assert (BO0 : BaseOK H rd v M0 ver0 r0 c0) by (by eapply base_ok_ext).
  assert (V0 : VInv H rd v M0 ver0 r0 a c0).
  { destruct V as (X1 & X2 & X3). split; [rewrite Ec0; by eapply cnt_ext|]. split; [by rewrite Ec0|]. rewrite Ec0. exact X3. }
  rewrite <- aset_map with (v := v), A2 in G.
  destruct (batch_root rd v M0 ver0 r0 a c0 (H <$> smap s) hc BO0 V0) as (nd & c2 & E2 & V2 & R2); [by rewrite fmap_empty_iff|rewrite Ec0; exact Rt|exact G|].
  assert (X : cache_set_root c2 (v, []) = c1).
  { eapply vinv_unique; [exact V2|exact V1|done|done| |by rewrite A2|intros q; by rewrite A3|].
    - cbn [a_map]. intros Z. apply map_positive_l in Z. by apply fmap_empty_iff in Z.
    - unfold rest2 in *. unfold rest3 in R1. rewrite Ec0 in R2. cbn [tc_next tc_values fz_nodes fz_values fz_stale fz_stats fz_roots cache_set_root] in R2 |- *. rewrite vset_collect in R2. congruence. }
  rewrite E1, bind_Ok. unfold batch_set. assert (As : assert_ (match s with [] => false | _ => true end) = Ok tt) by (by destruct s).
  rewrite As, bind_Ok. fold c0. cbv zeta. unfold btree_collect. fold (smap s).
  assert (Ef : map (fun kx : key * value => (kx.1, value_hash H kx.2)) (entries (smap s)) = entries (H <$> smap s)) by (rewrite entries_fmap; done).
  rewrite Ef, E2, bind_Ok. cbv beta iota zeta. by rewrite X.
Qed.
End top.
