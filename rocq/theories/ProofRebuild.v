(** Building again what a built graph consists of *)
From Coq Require Import String List Bool Arith ZArith QArith Lia Permutation Sorted Sorting.
From Verif Require Import Base F64 Lib ModelApprox ModelUnits ModelConfig ModelGraph ModelBuild
  ProofNodes ProofStages ProofBuild ProofGraph ProofApprox Spec ProofProps SpecGenerate SpecRoundtrip.
Import ListNotations.
Open Scope nat_scope.

(** *** Sorted lists *)
Lemma sort_by_id {A} (leb : A -> A -> bool) l :
  StronglySorted (fun a b => leb a b = true) l -> sort_by leb l = l.
Proof.
  induction 1 as [|x l Hs IH Hf]; [reflexivity|]. simpl. rewrite IH.
  destruct l as [|y l]; [reflexivity|]. simpl. inversion Hf; subst. now rewrite H1.
Qed.

Lemma sorted_from_nth {A} (R : A -> A -> Prop) l :
  (forall i j x y, i < j -> nth_error l i = Some x -> nth_error l j = Some y -> R x y) -> StronglySorted R l.
Proof.
  induction l as [|x l IH]; intros H; constructor.
  - apply IH. intros i j a b Hij Ha Hb. apply (H (S i) (S j)); auto. lia.
  - rewrite Forall_forall. intros y Hy. apply In_nth_error in Hy. destruct Hy as [j Hj]. apply (H 0 (S j)); auto. lia.
Qed.

Lemma list_ext {A} (l l' : list A) : (forall i, nth_error l i = nth_error l' i) -> l = l'.
Proof.
  revert l'. induction l as [|x l IH]; intros [|y l'] H; auto; try (specialize (H 0); discriminate).
  f_equal; [specialize (H 0); simpl in H; congruence|]. apply IH. intros i. apply (H (S i)).
Qed.

Lemma sorted_same l l' : StronglySorted Z.lt l -> StronglySorted Z.lt l' -> (forall x, In x l <-> In x l') -> l = l'.
Proof.
  intros H1 H2 H. apply (sorted_perm_unique Z.lt); auto.
  - intros x y _ _ A B. lia.
  - assert (N : forall k, StronglySorted Z.lt k -> NoDup k).
    { induction 1 as [|x k Hk IH Hf]; constructor; auto. rewrite Forall_forall in Hf. intros Hx. specialize (Hf x Hx). lia. }
    apply NoDup_Permutation; auto.
Qed.

(** *** Nothing is removed *)
Lemma dedup_from_id {A} (same : A -> A -> bool) l : forall prev,
  (forall i x y, nth_error (prev :: l) i = Some x -> nth_error (prev :: l) (S i) = Some y -> same x y = false) ->
  dedup_from same prev l = l.
Proof.
  induction l as [|x l IH]; intros prev H; [reflexivity|]. simpl. rewrite (H 0 prev x eq_refl eq_refl). f_equal.
  apply IH. intros i a b Ha Hb. apply (H (S i)); auto.
Qed.
Lemma dedup_by_id {A} (same : A -> A -> bool) l :
  (forall i x y, nth_error l i = Some x -> nth_error l (S i) = Some y -> same x y = false) -> dedup_by same l = l.
Proof. destruct l as [|x l]; [reflexivity|]. intros H. simpl. f_equal. now apply dedup_from_id. Qed.

Lemma rm_from_id l : forall prev r,
  (forall i x y, nth_error (prev :: l) i = Some x -> nth_error (prev :: l) (S i) = Some y -> is_duplicate x y = false) ->
  rm_from prev r l = [].
Proof.
  induction l as [|x l IH]; intros prev r H; [reflexivity|]. simpl. rewrite (H 0 prev x eq_refl eq_refl).
  apply IH. intros i a b Ha Hb. apply (H (S i)); auto.
Qed.
Lemma rm_of_id l :
  (forall i x y, nth_error l i = Some x -> nth_error l (S i) = Some y -> is_duplicate x y = false) -> rm_of l = [].
Proof. destruct l as [|x l]; [reflexivity|]. intros H. simpl. now apply rm_from_id. Qed.

(** *** The map of ids depends on the ids alone *)
Lemma id_pairs_ids K : id_pairs (core_edges K) =
  flat_map (fun p : nat * option nat => match snd p with Some i => [(i, fst p)] | None => [] end) (enumerate (map b_id K)).
Proof.
  unfold core_edges, enumerate. rewrite !map_length. generalize 0. induction K as [|k K IH]; intros s; [reflexivity|].
  simpl. destruct (b_id k); simpl; now rewrite IH.
Qed.

Lemma identity_pairs m :
  flat_map (fun p : nat * option nat => match snd p with Some i => [(i, fst p)] | None => [] end)
           (enumerate (map Some (seq 0 m))) = identity_map m.
Proof.
  unfold identity_map, enumerate. rewrite map_length, seq_length. generalize 0 as s.
  induction m as [|m IH]; intros s; [reflexivity|]. simpl. now rewrite IH.
Qed.

Lemma identity_map_nth m i p : nth_error (identity_map m) i = Some p -> p = (i, i).
Proof.
  unfold identity_map. rewrite nth_error_map. intros H.
  destruct (nth_error (seq 0 m) i) as [j|] eqn:E; [|discriminate].
  assert (i < m) by (pose proof (nth_error_lt _ _ _ E) as L; now rewrite seq_length in L).
  rewrite (nth_error_nth' _ 0) in E by now rewrite seq_length. rewrite seq_nth in E by auto. injection E as <-.
  injection H as <-. reflexivity.
Qed.

Lemma build_identity_map m : build_id_map (identity_map m) = Ok (identity_map m).
Proof.
  unfold build_id_map. rewrite sort_by_id.
  - rewrite dedup_by_id; [now rewrite Nat.eqb_refl|].
    intros i x y Hx Hy. apply identity_map_nth in Hx, Hy. subst. simpl. apply Nat.eqb_neq. lia.
  - apply sorted_from_nth. intros i j x y Hij Hx Hy. apply identity_map_nth in Hx, Hy. subst. simpl. apply Nat.leb_le. lia.
Qed.

(** *** Nodes *)
Lemma last_coord_at ns : forall i pn acc, NoDup (map pn_id ns) -> nth_error ns i = Some pn ->
  last_coord (pn_id pn) ns acc = Some (pn_coord pn).
Proof.
  induction ns as [|n ns IH]; intros i pn acc Hn Hi; [destruct i; discriminate|]. inversion Hn; subst. destruct i as [|i]; simpl in *.
  - injection Hi as ->. rewrite Z.eqb_refl. apply last_coord_absent. intros n' Hn' E. apply H1. rewrite <- E. now apply in_map.
  - now apply IH with (i := i).
Qed.
Lemma last_level_at ns : forall i pn acc, NoDup (map pn_id ns) -> nth_error ns i = Some pn ->
  last_level (pn_id pn) ns acc = match pn_level pn with Some l => l | None => acc end.
Proof.
  induction ns as [|n ns IH]; intros i pn acc Hn Hi; [destruct i; discriminate|]. inversion Hn; subst. destruct i as [|i]; simpl in *.
  - injection Hi as ->. rewrite Z.eqb_refl.
    assert (A : forall a, last_level (pn_id pn) ns a = a); [|apply A].
    assert (B : forall n', In n' ns -> pn_id n' <> pn_id pn).
    { intros n' Hn' E. apply H1. rewrite <- E. now apply in_map. }
    clear - B. induction ns as [|n ns IH]; intros a; [reflexivity|]. simpl.
    destruct (Z.eqb_spec (pn_id n) (pn_id pn)) as [E|E]; [exfalso; apply (B n); [now left|auto]|].
    apply IH. intros n' Hn'. apply B. now right.
  - rewrite IH with (i := i) by auto.
    destruct (Z.eqb_spec (pn_id n) (pn_id pn)) as [E|E]; [|reflexivity].
    exfalso. apply H1. rewrite E. apply in_map. eapply nth_error_In; eauto.
Qed.

(** *** Metrics *)
Lemma lifted_stays x : lifted x x -> clamp_metric x = x.
Proof.
  unfold clamp_metric. intros [[_ E]|[H _]].
  - rewrite E. destruct (approx_eq _ f0); reflexivity.
  - destruct (approx_eq x f0) eqn:E; [|reflexivity]. exfalso.
    apply approx_eq_close in E. destruct E as (a & b & -> & Hb & Hab). injection Hb as <-.
    specialize (H a eq_refl). apply (Qlt_irrefl (3 # 2000000)). eapply Qle_lt_trans; [exact H|].
    eapply Qle_lt_trans; [|exact Hab]. apply Qle_lteq. right. apply Qabs.Qabs_wd. ring.
Qed.
Lemma not_small_stays x : not_too_small x -> fltb x F64_ABS = false.
Proof.
  destruct x as [q| | |]; simpl; try reflexivity; try tauto. intros H.
  unfold fltb, F64_ABS, fcmp. destruct (Qcompare_spec q ABSQ) as [E|E|E]; auto.
  exfalso. apply (Qlt_not_le _ _ E). exact H.
Qed.

Lemma key_le_ids s1 l1 d1 i1 s2 l2 d2 i2 (j1 j2 : option nat) :
  key_le (s1, l1, d1, i1) (s2, l2, d2, i2) -> cmp_opt j1 j2 <> Gt -> key_le (s1, l1, d1, j1) (s2, l2, d2, j2).
Proof.
  unfold key_le, cmp_key, then_cmp.
  destruct (Nat.compare_spec s1 s2), (Nat.compare_spec l2 l1), (Nat.compare_spec d1 d2); auto; congruence.
Qed.

(** *** The order of entering edges *)
Lemma insert_stable {A} (leb : A -> A -> bool) (P : A -> A -> Prop) x l :
  (forall x y, leb x y = true \/ leb y x = true) ->
  (forall x y z, leb x y = true -> leb y z = true -> leb x z = true) ->
  Forall (P x) l ->
  StronglySorted (fun a b => leb a b = true /\ (leb b a = true -> P a b)) l ->
  StronglySorted (fun a b => leb a b = true /\ (leb b a = true -> P a b)) (insert_sorted leb x l).
Proof.
  intros total trans HP Hs. induction Hs as [|y l Hs IH Hf]; simpl; [repeat constructor|]. inversion HP; subst.
  destruct (leb x y) eqn:E.
  - constructor; [constructor; auto|]. rewrite Forall_forall in *. intros z [<-|Hz]; [auto|].
    destruct (Hf z Hz) as [Hyz _]. split; [eapply trans; eauto|]. intros _. now apply H2.
  - constructor; [now apply IH|]. rewrite Forall_forall in *. intros z Hz.
    apply (Permutation_in z (insert_sorted_perm leb x l)) in Hz. destruct Hz as [<-|Hz]; [|now apply Hf].
    split; [destruct (total y x); congruence|congruence].
Qed.
Lemma sort_by_stable {A} (leb : A -> A -> bool) (P : A -> A -> Prop) l :
  (forall x y, leb x y = true \/ leb y x = true) ->
  (forall x y z, leb x y = true -> leb y z = true -> leb x z = true) ->
  StronglySorted P l ->
  StronglySorted (fun a b => leb a b = true /\ (leb b a = true -> P a b)) (sort_by leb l).
Proof.
  intros total trans Hs. induction Hs as [|x l Hs IH Hf]; simpl; [constructor|]. apply insert_stable; auto.
  rewrite Forall_forall in *. intros y Hy. apply Hf. now apply sort_by_in in Hy.
Qed.

Definition triple (e : protoC) : nat * nat * nat := (c_dst e, c_src e, c_idx e).
Definition triple_lt (levels : list nat) (t t' : nat * nat * nat) : Prop :=
  let '(d, s, i) := t in let '(d', s', i') := t' in
  cmp_key (d, nth s levels 0, s, None) (d', nth s' levels 0, s', None) = Lt \/ (d = d' /\ s = s' /\ i < i').

Lemma core_edges_idx_sorted K : StronglySorted (fun a b => c_idx a < c_idx b) (core_edges K).
Proof.
  apply sorted_from_nth. intros i j x y Hij Hx Hy.
  assert (L : length (core_edges K) = length K) by (unfold core_edges; now rewrite map_length, enumerate_length, map_length).
  destruct (nth_error K i) as [k|] eqn:Ek; [|apply nth_error_None in Ek; apply nth_error_lt in Hx; lia].
  destruct (nth_error K j) as [k'|] eqn:Ek'; [|apply nth_error_None in Ek'; apply nth_error_lt in Hy; lia].
  rewrite (core_edges_nth _ _ _ Ek) in Hx. rewrite (core_edges_nth _ _ _ Ek') in Hy.
  injection Hx as <-. injection Hy as <-. exact Hij.
Qed.

Lemma bwd_leb_total levels x y : bwd_leb levels x y = true \/ bwd_leb levels y x = true.
Proof. unfold bwd_leb. rewrite (cmp_key_anti (bwd_key levels x) (bwd_key levels y)). destruct (cmp_key _ _); auto. Qed.
Lemma bwd_leb_trans levels x y z : bwd_leb levels x y = true -> bwd_leb levels y z = true -> bwd_leb levels x z = true.
Proof.
  unfold bwd_leb. intros H1 H2. pose proof (cmp_key_trans (bwd_key levels x) (bwd_key levels y) (bwd_key levels z)) as H.
  destruct (cmp_key (bwd_key levels x) (bwd_key levels y)); try discriminate;
    destruct (cmp_key (bwd_key levels y) (bwd_key levels z)); try discriminate;
    destruct (cmp_key (bwd_key levels x) (bwd_key levels z)); auto; exfalso; apply H; congruence.
Qed.

Lemma bwd_triples levels K : StronglySorted (fun x y => key_le (fwd_key levels x) (fwd_key levels y)) K ->
  StronglySorted (triple_lt levels) (map triple (core_bwd levels K)).
Proof.
  intros HK. apply StronglySorted_map. eapply StronglySorted_impl;
    [|apply (sort_by_stable (bwd_leb levels) _ _ (bwd_leb_total levels) (bwd_leb_trans levels) (core_edges_idx_sorted K))].
  intros x y Hx Hy [H1 H2]. apply sort_by_in in Hx, Hy.
  destruct (core_edges_in _ _ Hx) as (k & Ek & S1 & D1 & I1). destruct (core_edges_in _ _ Hy) as (k' & Ek' & S2 & D2 & I2).
  unfold triple, triple_lt. unfold bwd_leb, bwd_key in H1, H2.
  unfold cmp_key, then_cmp in *.
  rewrite (Nat.compare_antisym (c_dst x) (c_dst y)) in H2.
  destruct (Nat.compare_spec (c_dst x) (c_dst y)) as [Ed|Ed|Ed]; [|now left|discriminate].
  rewrite (Nat.compare_antisym (nth (c_src y) levels 0) (nth (c_src x) levels 0)) in H2.
  destruct (Nat.compare_spec (nth (c_src y) levels 0) (nth (c_src x) levels 0)) as [El|El|El]; [|now left|discriminate].
  rewrite (Nat.compare_antisym (c_src x) (c_src y)) in H2.
  destruct (Nat.compare_spec (c_src x) (c_src y)) as [Es|Es|Es]; [|now left|discriminate].
  cbn [CompOpp] in H2. right. split; auto. split; auto. rewrite (cmp_opt_anti (c_id x) (c_id y)) in H2.
  destruct (cmp_opt (c_id x) (c_id y)) eqn:Ec; [apply H2; reflexivity| |discriminate].
  destruct (Nat.lt_trichotomy (c_idx x) (c_idx y)) as [L|[L|L]]; auto; exfalso.
  - rewrite L in Ek. assert (k = k') by congruence. subst k'. rewrite I1, I2 in Ec.
    destruct (b_id k); simpl in Ec; [rewrite Nat.compare_refl in Ec|]; discriminate.
  - pose proof (StronglySorted_nth _ _ _ _ _ _ HK L Ek' Ek) as Hk. unfold key_le, fwd_key in Hk.
    rewrite <- S1, <- D1, <- I1, <- S2, <- D2, <- I2, Es, Ed in Hk. unfold cmp_key, then_cmp in Hk. rewrite !Nat.compare_refl in Hk.
    apply Hk. rewrite (cmp_opt_anti (c_id x) (c_id y)), Ec. reflexivity.
Qed.

Lemma core_triples K : map triple (core_edges K) = combine (combine (map b_dst K) (map b_src K)) (seq 0 (length K)).
Proof.
  unfold core_edges, enumerate. rewrite !map_length. generalize 0. induction K as [|k K IH]; intros s; [reflexivity|].
  simpl. f_equal. apply IH.
Qed.

Lemma bwd_triples_same levels K K2 :
  StronglySorted (fun x y => key_le (fwd_key levels x) (fwd_key levels y)) K ->
  StronglySorted (fun x y => key_le (fwd_key levels x) (fwd_key levels y)) K2 ->
  map b_src K2 = map b_src K -> map b_dst K2 = map b_dst K ->
  map triple (core_bwd levels K) = map triple (core_bwd levels K2).
Proof.
  intros H1 H2 Es Ed. apply (sorted_perm_unique (triple_lt levels)); [|now apply bwd_triples|now apply bwd_triples|].
  - intros [[d s] i] [[d' s'] i'] _ _ A B. unfold triple_lt in A, B.
    rewrite (cmp_key_anti (d, nth s levels 0, s, None)) in B.
    destruct A as [A|(-> & -> & A)].
    + rewrite A in B. destruct B as [B|(-> & -> & B)]; [discriminate|].
      exfalso. unfold cmp_key, then_cmp in A. rewrite !Nat.compare_refl in A. discriminate.
    + destruct B as [B|(_ & _ & B)]; [|lia]. unfold cmp_key, then_cmp in B. rewrite !Nat.compare_refl in B. discriminate.
  - transitivity (map triple (core_edges K)); [apply Permutation_map, core_bwd_perm|].
    transitivity (map triple (core_edges K2)); [|symmetry; apply Permutation_map, core_bwd_perm].
    rewrite !core_triples, Es, Ed.
    assert (L : length K2 = length K) by (apply (f_equal (@length nat)) in Es; now rewrite !map_length in Es). now rewrite L.
Qed.

(** *** The graph *)
Section Rebuild.
  Variables (hav : coord -> coord -> f64) (c : cfg) (ch1 ch2 : nat) (es : list proto_edge) (ns : list proto_node) (g : graph).
  Hypotheses (Hc1 : 1 <= ch1) (Hc2 : 1 <= ch2) (HB : build hav c ch1 ch2 es ns = Ok g).
  Variables (pes : list proto_edge) (pns : list proto_node).
  Hypothesis Hlen : length pes = edge_count g FWD.
  Hypothesis Hpes : forall e pe, nth_error pes e = Some pe ->
    same_ends g e pe /\ edge_try_id g e = Ok (pe_id pe) /\ edge_metrics g e = Ok (pe_metrics pe) /\ sc_edges g e = Ok (pe_sc pe).
  Hypothesis Hpnl : length pns = node_count g.
  Hypothesis Hpns : forall i pn, nth_error pns i = Some pn ->
    node_id g i = Ok (pn_id pn) /\ node_coord g i = Ok (pn_coord pn) /\
    node_level g i = Ok (match pn_level pn with Some l => l | None => 0 end).
  Hypothesis Hml : length (metrics g) = edge_count g FWD.
  Hypothesis Hmet : forall e ms x, edge_metrics g e = Ok ms -> In x ms -> lifted x x /\ not_too_small x.
  Hypothesis Hdup : no_duplicates g.

  Lemma rebuild_endpoints x : endpoint pes x <-> endpoint es x.
  Proof.
    destruct (build_edges _ _ _ _ _ _ _ Hc1 Hc2 HB) as (rep & orig & A & B & _).
    assert (Hsame : forall e pe pe', same_ends g e pe -> same_ends g e pe' -> pe_src pe = pe_src pe' /\ pe_dst pe = pe_dst pe').
    { intros e pe pe' (s & d & (S1 & D1) & I1 & I2) (s' & d' & (S2 & D2) & I3 & I4). split; congruence. }
    split.
    - intros (pe & Hin & Hx). apply In_nth_error in Hin. destruct Hin as [e He].
      destruct (A e) as (pe' & Epe' & _ & S' & _). { rewrite <- Hlen. eapply nth_error_lt; eauto. }
      destruct (Hpes _ _ He) as (S & _). destruct (Hsame _ _ _ S S') as [E1 E2].
      exists pe'. split; [eapply nth_error_In; eauto|]. rewrite <- E1, <- E2. exact Hx.
    - intros (pe & Hin & Hx). apply In_nth_error in Hin. destruct Hin as [p Hp].
      destruct (B p pe Hp) as (Hr & pe' & Epe' & Hor).
      destruct (A _ Hr) as (pe2 & Epe2 & _ & S' & _). assert (pe2 = pe') by congruence. subst pe2.
      assert (Hends : pe_src pe' = pe_src pe /\ pe_dst pe' = pe_dst pe).
      { destruct Hor as [E|(E1 & E2 & _)]; [rewrite E in Epe'; assert (pe' = pe) by congruence; subst; auto|auto]. }
      rewrite <- Hlen in Hr. destruct (nth_error pes (rep p)) as [q|] eqn:Eq; [|apply nth_error_None in Eq; lia].
      destruct (Hpes _ _ Eq) as (S & _). destruct (Hsame _ _ _ S S') as [E1 E2]. destruct Hends as [E3 E4].
      exists q. split; [eapply nth_error_In; eauto|]. rewrite E1, E2, E3, E4. exact Hx.
  Qed.

  Lemma rebuild_lemma hav' c' ch1' ch2' : 1 <= ch1' -> 1 <= ch2' -> plain_metrics c' ->
    build hav' c' ch1' ch2' pes pns = Ok (with_means (with_cfg g c') None).
  Proof.
    intros Hc1' Hc2' (P1 & P2 & P3).
    destruct (build_spec _ _ _ _ _ _ _ Hc1 Hc2 HB) as (b & g0 & K & Eb & Hb & Hcore & Hnet & Hids & _ & _).
    pose proof (cs_kept _ _ _ _ _ Hcore) as HK. pose proof (nbi_sorted _ _ Hb) as Hs.
    assert (Eids : node_ids g = nb_node_ids b) by (rewrite (sn_ids _ _ Hnet); apply (cs_ids _ _ _ _ _ Hcore)).
    assert (Elev : node_levels g = nb_levels b) by (rewrite (sn_levels _ _ Hnet); apply (cs_levels _ _ _ _ _ Hcore)).
    assert (Ecrd : nb_coords b = map Some (node_coords g)) by (rewrite (sn_coords _ _ Hnet); apply (cs_coords _ _ _ _ _ Hcore)).
    assert (Hcnt : edge_count g FWD = length K) by (rewrite (net_edge_count g0 g) by auto; eapply core_edge_count; eauto).
    (* nodes *)
    destruct (insert_nodes_total pes _ pns (nb_inv_init pes)) as (b' & Eb' & Hb').
    destruct (insert_nodes_spec pes _ pns b' (nb_inv_init pes) Eb') as (_ & Eids' & Hnode).
    assert (Eids2 : nb_node_ids b' = nb_node_ids b).
    { apply sorted_same; [apply (nbi_sorted _ _ Hb')|auto|].
      intros x. rewrite (nbi_ids _ _ Hb'), (nbi_ids _ _ Hb). apply rebuild_endpoints. }
    assert (Hnc : node_count g = length (nb_node_ids b)) by (unfold node_count; now rewrite Eids).
    assert (Hpn : forall i id, nth_error (nb_node_ids b) i = Some id -> exists pn, nth_error pns i = Some pn /\ pn_id pn = id).
    { intros i id Hi. destruct (nth_error pns i) as [pn|] eqn:E.
      - exists pn. split; auto. destruct (Hpns _ _ E) as (A & _). unfold node_id in A. apply idx_ok in A. rewrite Eids in A. congruence.
      - apply nth_error_None in E. apply nth_error_lt in Hi. lia. }
    assert (Hpnid : map pn_id pns = nb_node_ids b).
    { apply list_ext. intros i. rewrite nth_error_map. destruct (nth_error (nb_node_ids b) i) as [id|] eqn:E.
      - destruct (Hpn _ _ E) as (pn & -> & <-). reflexivity.
      - apply nth_error_None in E. rewrite <- Hnc, <- Hpnl in E. apply nth_error_None in E. now rewrite E. }
    assert (Hnd : NoDup (map pn_id pns)).
    { rewrite Hpnid. clear - Hs. induction Hs as [|x l Hl IH Hf]; constructor; auto.
      rewrite Forall_forall in Hf. intros Hx. specialize (Hf x Hx). lia. }
    assert (Hat : forall i id, nth_error (nb_node_ids b) i = Some id -> exists pn, nth_error pns i = Some pn /\
              nth_error (nb_coords b') i = Some (Some (pn_coord pn)) /\
              nth_error (nb_levels b') i = Some (match pn_level pn with Some l => l | None => 0 end)).
    { intros i id Hi. destruct (Hpn _ _ Hi) as (pn & Epn & <-). exists pn. split; auto.
      rewrite <- Eids2, Eids' in Hi. destruct (Hnode i _ Hi) as (cc & ll & _ & Hl & H1 & H2).
      rewrite (last_coord_at _ _ _ _ Hnd Epn) in H1. rewrite (last_level_at _ _ _ _ Hnd Epn) in H2. split; auto.
      assert (ll = 0) as ->; [|exact H2]. simpl in Hl. apply nth_error_In in Hl. now apply repeat_spec in Hl. }
    assert (Ecrd' : nb_coords b' = nb_coords b).
    { apply list_ext. intros i. destruct (nth_error (nb_node_ids b) i) as [id|] eqn:E.
      - destruct (Hat _ _ E) as (pn & Epn & -> & _). destruct (Hpns _ _ Epn) as (_ & A & _). unfold node_coord in A. apply idx_ok in A.
        rewrite Ecrd, nth_error_map, A. reflexivity.
      - apply nth_error_None in E. transitivity (@None (option coord)); [|symmetry]; apply nth_error_None.
        + rewrite (nbi_coords _ _ Hb'), Eids2. exact E.
        + rewrite (nbi_coords _ _ Hb). exact E. }
    assert (Elev' : nb_levels b' = nb_levels b).
    { apply list_ext. intros i. destruct (nth_error (nb_node_ids b) i) as [id|] eqn:E.
      - destruct (Hat _ _ E) as (pn & Epn & _ & ->). destruct (Hpns _ _ Epn) as (_ & _ & A). unfold node_level in A. apply idx_ok in A.
        rewrite <- Elev, A. reflexivity.
      - apply nth_error_None in E. transitivity (@None nat); [|symmetry]; apply nth_error_None.
        + rewrite (nbi_levels _ _ Hb'), Eids2. exact E.
        + rewrite (nbi_levels _ _ Hb). exact E. }
    set (ids := nb_node_ids b) in *. set (levels := nb_levels b) in *.
    (* edges *)
    set (K2 := map (toB ids) (as_of pes)).
    assert (HK2 : forall e k2, nth_error K2 e = Some k2 -> exists k pe, nth_error K e = Some k /\ nth_error pes e = Some pe /\
              k2 = toB ids (mkAof pes e pe) /\ b_src k2 = b_src k /\ b_dst k2 = b_dst k /\ b_id k2 = pe_id pe /\ b_metrics k2 = pe_metrics pe).
    { intros e k2 H. unfold K2 in H. rewrite nth_error_map in H.
      destruct (nth_error pes e) as [pe|] eqn:Epe.
      2:{ apply nth_error_None in Epe. rewrite <- as_of_length in Epe. apply nth_error_None in Epe. rewrite Epe in H. discriminate. }
      rewrite (as_of_nth _ _ _ Epe) in H. injection H as <-.
      destruct (nth_error K e) as [k|] eqn:Ek; [|apply nth_error_None in Ek; apply nth_error_lt in Epe; lia].
      exists k, pe. split; auto. split; auto. split; auto.
      destruct (Hpes _ _ Epe) as ((s & d & (S1 & D1) & I1 & I2) & _).
      rewrite (net_dst_idx g0 g) in S1 by auto. rewrite (net_dst_idx g0 g) in D1 by auto.
      apply (core_dst es b c K g0 Hcore) in S1, D1. destruct S1 as (k' & E1 & ->). destruct D1 as (k3 & E2 & ->).
      assert (k' = k) by congruence. assert (k3 = k) by congruence. subst k' k3.
      unfold node_id in I1, I2. apply idx_ok in I1, I2. rewrite Eids in I1, I2.
      simpl. split; [|split; [|auto]].
      - eapply sorted_lt_inj; [exact Hs| |exact I1]. apply posn_nth; auto. eapply nth_error_In; eauto.
      - eapply sorted_lt_inj; [exact Hs| |exact I2]. apply posn_nth; auto. eapply nth_error_In; eauto. }
    assert (HK2l : length K2 = length K) by (unfold K2; rewrite map_length, as_of_length; lia).
    assert (Hnth : forall e, e < length K -> exists k k2 pe, nth_error K e = Some k /\ nth_error K2 e = Some k2 /\ nth_error pes e = Some pe /\
              k2 = toB ids (mkAof pes e pe) /\ b_src k2 = b_src k /\ b_dst k2 = b_dst k /\ b_id k2 = pe_id pe /\ b_metrics k2 = pe_metrics pe).
    { intros e He. destruct (nth_error K2 e) as [k2|] eqn:E; [|apply nth_error_None in E; lia].
      destruct (HK2 _ _ E) as (k & pe & H). exists k, k2, pe. tauto. }
    assert (Hmap : forall {B} (f : protoB -> B) l, length l = length K ->
              (forall e k k2 pe, nth_error K e = Some k -> nth_error pes e = Some pe -> b_src k2 = b_src k -> b_dst k2 = b_dst k ->
                 b_id k2 = pe_id pe -> b_metrics k2 = pe_metrics pe -> nth_error l e = Some (f k2)) -> map f K2 = l).
    { intros B f l Hl H. apply list_ext. intros e. rewrite nth_error_map. destruct (Nat.lt_ge_cases e (length K)) as [L|L].
      - destruct (Hnth _ L) as (k & k2 & pe & Ek & -> & Epe & _ & S1 & D1 & I1 & M1). symmetry. simpl. now apply (H e k k2 pe).
      - rewrite (proj2 (nth_error_None K2 e)) by lia. rewrite (proj2 (nth_error_None l e)) by lia. reflexivity. }
    assert (Msrc : map b_src K2 = map b_src K).
    { apply Hmap; [now rewrite map_length|]. intros e k k2 pe Ek _ S1 _ _ _. rewrite nth_error_map, Ek. simpl. congruence. }
    assert (Mdst : map b_dst K2 = map b_dst K).
    { apply Hmap; [now rewrite map_length|]. intros e k k2 pe Ek _ _ D1 _ _. rewrite nth_error_map, Ek. simpl. congruence. }
    assert (Leids : length (edge_ids g) = length K).
    { destruct Hids as [[-> _]|[-> _]]; [rewrite (cs_eids _ _ _ _ _ Hcore); apply map_length|].
      rewrite map_length, seq_length. rewrite <- (net_edge_count g0 g) by auto. exact Hcnt. }
    assert (Mid : map b_id K2 = edge_ids g).
    { apply Hmap; auto. intros e k k2 pe _ Epe _ _ I1 _. destruct (Hpes _ _ Epe) as (_ & A & _). unfold edge_try_id in A. apply idx_ok in A. congruence. }
    assert (Mmet : map (fun e => map clamp_metric (b_metrics e)) K2 = metrics g).
    { apply Hmap; [lia|]. intros e k k2 pe _ Epe _ _ _ M1. destruct (Hpes _ _ Epe) as (_ & _ & A & _).
      assert (E : map clamp_metric (b_metrics k2) = b_metrics k2).
      { rewrite M1. transitivity (map (fun x => x) (pe_metrics pe)); [|apply map_id]. apply map_ext_in. intros x Hx. apply lifted_stays. apply (Hmet _ _ x A Hx). }
      rewrite E, M1. unfold edge_metrics in A. now apply idx_ok in A. }
    (* order *)
    assert (HKs : StronglySorted (fun x y => key_le (fwd_key levels x) (fwd_key levels y)) K) by (rewrite HK; apply kept_sorted).
    assert (HK2s : StronglySorted (fun x y => key_le (fwd_key levels x) (fwd_key levels y)) K2).
    { apply sorted_from_nth. intros i j x y Hij Hx Hy.
      destruct (HK2 _ _ Hx) as (k & pe & Ek & Epe & _ & S1 & D1 & I1 & _). destruct (HK2 _ _ Hy) as (k' & pe' & Ek' & Epe' & _ & S2 & D2 & I2 & _).
      pose proof (StronglySorted_nth _ _ _ _ _ _ HKs Hij Ek Ek') as Hkk. unfold fwd_key in *. rewrite S1, D1, S2, D2.
      destruct (Hpes _ _ Epe) as (_ & A & _). destruct (Hpes _ _ Epe') as (_ & A' & _). unfold edge_try_id in A, A'. apply idx_ok in A, A'.
      destruct Hids as [[E _]|[E _]]; rewrite E in A, A'.
      - rewrite (cs_eids _ _ _ _ _ Hcore), nth_error_map in A, A'. rewrite Ek in A. rewrite Ek' in A'. simpl in A, A'.
        assert (b_id x = b_id k) by congruence. assert (b_id y = b_id k') by congruence. congruence.
      - eapply key_le_ids; [exact Hkk|]. rewrite I1, I2. rewrite nth_error_map in A, A'.
        assert (Hi : i < length K) by (eapply nth_error_lt; eauto). assert (Hj : j < length K) by (eapply nth_error_lt; eauto).
        rewrite <- (net_edge_count g0 g), Hcnt in A, A' by auto.
        rewrite (nth_error_nth' _ 0) in A by now rewrite seq_length. rewrite (nth_error_nth' _ 0) in A' by now rewrite seq_length.
        rewrite seq_nth in A, A' by auto. injection A as <-. injection A' as <-. simpl.
        destruct (Nat.compare_spec i j); try discriminate. lia. }
    assert (ESE : sorted_edges pes ids levels = K2).
    { unfold sorted_edges. fold K2. unfold sort_fwd. apply sort_by_id. eapply StronglySorted_impl; [|exact HK2s].
      intros x y _ _. unfold key_le, fwd_leb. destruct (cmp_key _ _); congruence. }
    assert (Hnodup : forall i x y, nth_error K2 i = Some x -> nth_error K2 (S i) = Some y -> is_duplicate x y = false).
    { intros i x y Hx Hy. destruct (is_duplicate x y) eqn:E; [|reflexivity]. exfalso.
      destruct (HK2 _ _ Hx) as (k & pe & Ek & Epe & Ex & _). destruct (HK2 _ _ Hy) as (k' & pe' & Ek' & Epe' & Ey & _).
      destruct (Hpes _ _ Epe) as ((s & d & (S1 & D1) & I1 & I2) & T1 & M1 & _). destruct (Hpes _ _ Epe') as ((s' & d' & (S2 & D2) & I3 & I4) & T2 & M2 & _).
      assert (Hin : forall z i, node_id g i = Ok z -> In z ids).
      { intros z j Hz. unfold node_id in Hz. apply idx_ok in Hz. rewrite Eids in Hz. eapply nth_error_In; eauto. }
      rewrite Ex, Ey in E. apply dup_same_edge in E; eauto. destruct E as (E1 & E2 & E3 & E4).
      unfold node_id in *. apply idx_ok in I1, I2, I3, I4. rewrite Eids in *.
      assert (s' = s). { eapply sorted_lt_inj; [exact Hs|exact I3|]. rewrite <- E1. exact I1. }
      assert (d' = d). { eapply sorted_lt_inj; [exact Hs|exact I4|]. rewrite <- E2. exact I2. }
      subst s' d'. rewrite <- E3 in T2.
      apply (Hdup i s d (pe_id pe) (pe_metrics pe) (pe_metrics pe')); auto; split; auto. }
    assert (EKE : kept_edges pes ids levels = K2) by (unfold kept_edges; rewrite ESE; now apply dedup_by_id).
    assert (Hrep : forall p, p < length pes -> rep_of pes ids levels p = p).
    { intros p Hp. destruct (nth_error pes p) as [pe|] eqn:Epe; [|apply nth_error_None in Epe; lia].
      pose proof (sorted_pos_spec pes ids levels p pe Epe) as H. rewrite ESE in H.
      destruct (HK2 _ _ H) as (k & pe' & _ & _ & E & _). apply (f_equal b_idx) in E. simpl in E.
      unfold rep_of. rewrite <- E, ESE. unfold rep_pos. rewrite rm_of_id by exact Hnodup. reflexivity. }
    (* shortcuts *)
    set (o1 := sc_opts es ids levels).
    assert (Lo1 : length o1 = length K) by (unfold o1, sc_opts; rewrite map_length, <- HK; reflexivity).
    assert (Hsc1 : forall e o, nth_error o1 e = Some o -> sc_edges g e = Ok o).
    { intros e o H. destruct (net_sc g0 g e Hnet) as [-> _]. refine (proj1 (sc_api g0 o1 e o _ _ H)).
      - apply (cs_sc_arr _ _ _ _ _ Hcore).
      - rewrite Lo1. apply (cs_sc_offs _ _ _ _ _ Hcore). }
    assert (Hpsc : forall e pe, nth_error pes e = Some pe -> nth_error o1 e = Some (pe_sc pe)).
    { intros e pe Epe. destruct (nth_error o1 e) as [o|] eqn:E; [|apply nth_error_None in E; apply nth_error_lt in Epe; lia].
      apply Hsc1 in E. destruct (Hpes _ _ Epe) as (_ & _ & _ & A). congruence. }
    assert (Hval : sc_valid pes).
    { intros pe p q Hin Hsc. apply In_nth_error in Hin. destruct Hin as [e Epe]. pose proof (Hpsc _ _ Epe) as H. rewrite Hsc in H.
      unfold o1, sc_opts in H. rewrite nth_error_map, <- HK in H. destruct (nth_error K e) as [k|] eqn:Ek; [|discriminate]. simpl in H.
      destruct (nth_error es (b_idx k)) as [pe0|] eqn:E0; [|discriminate]. destruct (pe_sc pe0) as [[p0 q0]|] eqn:Esc; [|discriminate].
      destruct (cs_valid _ _ _ _ _ Hcore pe0 p0 q0 (nth_error_In _ _ E0) Esc) as [Hp0 Hq0]. injection H as <- <-.
      destruct (nth_error es p0) as [a|] eqn:Ea; [|apply nth_error_None in Ea; lia].
      destruct (nth_error es q0) as [d|] eqn:Ed; [|apply nth_error_None in Ed; lia].
      destruct (rep_of_spec es ids levels p0 a Ea) as (x & Hx & _). destruct (rep_of_spec es ids levels q0 d Ed) as (y & Hy & _).
      rewrite <- HK in Hx, Hy. apply nth_error_lt in Hx, Hy. rewrite Hlen, Hcnt. auto. }
    assert (Eopts : sc_opts pes ids levels = o1).
    { unfold sc_opts. rewrite EKE. apply list_ext. intros e. rewrite nth_error_map. destruct (Nat.lt_ge_cases e (length K)) as [L|L].
      - destruct (Hnth _ L) as (k & k2 & pe & _ & -> & Epe & -> & _). simpl. rewrite Epe, (Hpsc _ _ Epe).
        destruct (pe_sc pe) as [[p q]|] eqn:Esc; [|reflexivity].
        destruct (Hval pe p q (nth_error_In _ _ Epe) Esc) as [Hp Hq]. now rewrite !Hrep by auto.
      - rewrite (proj2 (nth_error_None K2 e)) by lia. rewrite (proj2 (nth_error_None o1 e)) by lia. reflexivity. }
    unfold build. rewrite Eb'. cbn [bind]. unfold finalize. rewrite (build_core_closed pes) by auto.
    rewrite Eids2, Ecrd', Elev', EKE, Eopts, Ecrd. unfold core_fun.
    rewrite (proj2 (all_coords_ok _ _) eq_refl). cbn [bind]. rewrite Mmet.
    assert (Hsm : metrics_too_small (metrics g) = false).
    { unfold metrics_too_small. destruct (existsb _ _) eqn:E; [|reflexivity]. exfalso. apply existsb_exists in E. destruct E as (ms & Hms & E).
      apply existsb_exists in E. destruct E as (x & Hx & E). apply In_nth_error in Hms. destruct Hms as [e He].
      assert (Ee : edge_metrics g e = Ok ms) by (unfold edge_metrics; now apply idx_ok).
      rewrite (not_small_stays x) in E; [discriminate|]. apply (Hmet e ms x Ee Hx). }
    rewrite Hsm, HK2l, Msrc, Mdst, Mid.
    destruct (build_sc_spec o1) as (offs & Eo & Hol & Ho). rewrite Lo1 in Eo, Hol, Ho. rewrite Eo. cbn [bind fst snd].
    rewrite (cs_foffs _ _ _ _ _ Hcore). cbn [bind].
    assert (Eidm : build_id_map (id_pairs (core_edges K2)) = Ok (edge_ids_map g)).
    { rewrite id_pairs_ids, Mid. destruct Hids as [[A B]|[A B]]; rewrite A, B.
      - rewrite (cs_eids _ _ _ _ _ Hcore), <- id_pairs_ids. apply (cs_idmap _ _ _ _ _ Hcore).
      - rewrite identity_pairs. apply build_identity_map. }
    rewrite Eidm. cbn [bind].
    pose proof (bwd_triples_same levels K K2 HKs HK2s Msrc Mdst) as Etr.
    assert (Ebi : map c_idx (core_bwd levels K2) = map c_idx (core_bwd levels K)).
    { apply (f_equal (map snd)) in Etr. rewrite !map_map in Etr. now symmetry. }
    assert (Ebd : map c_dst (core_bwd levels K2) = map c_dst (core_bwd levels K)).
    { apply (f_equal (map (fun t => fst (fst t)))) in Etr. rewrite !map_map in Etr. now symmetry. }
    rewrite Ebi, Ebd. unfold levels. rewrite (cs_boffs _ _ _ _ _ Hcore). cbn [bind].
    assert (Eoffs : offs = sc_offsets g).
    { rewrite (sn_so _ _ Hnet). apply list_ext. intros i. destruct (Nat.le_gt_cases i (length K)) as [L|L].
      - rewrite (Ho i L). symmetry. apply (cs_sc_offs _ _ _ _ _ Hcore). exact L.
      - rewrite (proj2 (nth_error_None offs i)) by lia. symmetry. apply nth_error_None. rewrite (cs_sc_len _ _ _ _ _ Hcore). lia. }
    assert (Earr : somes o1 = sc_edges_arr g) by (rewrite (sn_se _ _ Hnet); symmetry; apply (cs_sc_arr _ _ _ _ _ Hcore)).
    rewrite Eoffs, Earr, <- (cs_b2f _ _ _ _ _ Hcore). fold levels. rewrite <- Elev, <- Eids.
    rewrite <- (cs_fwd _ _ _ _ _ Hcore), <- (cs_bwd _ _ _ _ _ Hcore), <- (cs_f2f _ _ _ _ _ Hcore).
    rewrite <- (sn_fd _ _ Hnet), <- (sn_bd _ _ Hnet), <- (sn_ff _ _ Hnet), <- (sn_bf _ _ Hnet), <- (sn_fo _ _ Hnet), <- (sn_bo _ _ Hnet).
    unfold generate. cbn [g_cfg]. rewrite P1. cbn [foldM bind]. unfold gen_dup. rewrite P2. cbn [existsb foldM bind].
    unfold normalize. cbn [g_cfg with_cfg]. rewrite P3. reflexivity.
  Qed.
End Rebuild.

(** nothing is missing in a built graph *)
Lemma build_lengths hav c ch1 ch2 es ns g :
  1 <= ch1 -> 1 <= ch2 -> build hav c ch1 ch2 es ns = Ok g ->
  length (edge_ids g) = edge_count g FWD /\ length (node_coords g) = node_count g /\ length (node_levels g) = node_count g.
Proof.
  intros H1 H2 E. destruct (build_spec _ _ _ _ _ _ _ H1 H2 E) as (b & g0 & K & Eb & Hb & Hcore & Hnet & Hids & _ & _).
  assert (Hcnt : edge_count g FWD = length K) by (rewrite (net_edge_count g0 g) by auto; eapply core_edge_count; eauto).
  split; [|split].
  - destruct Hids as [[-> _]|[-> _]]; [rewrite (cs_eids _ _ _ _ _ Hcore), map_length; auto|].
    rewrite map_length, seq_length. symmetry. now apply net_edge_count.
  - unfold node_count. rewrite (sn_coords _ _ Hnet), (sn_ids _ _ Hnet), (cs_ids _ _ _ _ _ Hcore).
    rewrite <- (nbi_coords _ _ Hb), (cs_coords _ _ _ _ _ Hcore). now rewrite map_length.
  - unfold node_count. rewrite (sn_levels _ _ Hnet), (sn_ids _ _ Hnet), (cs_ids _ _ _ _ _ Hcore), (cs_levels _ _ _ _ _ Hcore).
    apply (nbi_levels _ _ Hb).
Qed.
