(** The search with arithmetic that rounds and the binary heap follows the one
    with an arbitrary queue *)
From Coq Require Import String List Bool Arith ZArith QArith Qabs Lia Lqa Permutation.
From Verif Require Import Base F64 Lib ProofNodes ModelApprox ProofApprox ModelUnits ModelConfig ModelGraph ModelBuild Spec
  ModelDijkstra AbsSearch SpecRouting ProofDijkstra ProofRouting ExamplesRouting ModelHeap SpecHeap ProofHeap PropsRouting ProofHeapSearch
  ModelRounded ModelRoundedHeap SpecRounded SpecRoundedHeap.
Import ListNotations.
Open Scope list_scope.
Open Scope nat_scope.

Section Order.
  Variable ar : f64 -> f64.
  Variable nn : nat.
  (** costs that occur *)
  Variable R : Q -> Prop.
  Variable eps : Q.
  Hypothesis eps_nonneg : (0 <= eps)%Q.
  Hypothesis close : forall a b, R a -> R b -> rapprox_eq ar (Fin a) (Fin b) = true -> (Qabs (a - b) <= eps)%Q.

  Notation entry_ok := (entry_ok nn R).
  Notation heap_ok := (heap_ok nn R eps).
  Notation err_nonneg := (err_nonneg eps eps_nonneg).
  Notation err_add := (err_add eps).

  Lemma rle_true x y : entry_ok x -> entry_ok y -> rrev_le ar x y = true -> (ckey y <= ckey x + eps)%Q.
  Proof.
    intros (_ & a & Ea & _ & Ha) (_ & b & Eb & _ & Hb) H. unfold ckey. rewrite Ea, Eb. unfold rrev_le, rcn_cmp, rapprox_cmp in H.
    rewrite Ea, Eb in H. destruct (rapprox_eq ar (Fin b) (Fin a)) eqn:E.
    - pose proof (close _ _ Hb Ha E) as K. apply Qabs_Qle_condition in K. lra.
    - cbn [fcmp] in H. destruct (Qcompare_spec b a) as [K|K|K]; cbn [then_with] in H; try discriminate; lra.
  Qed.
  Lemma rle_false x y : entry_ok x -> entry_ok y -> rrev_le ar x y = false -> (ckey x <= ckey y + eps)%Q.
  Proof.
    intros (_ & a & Ea & _ & Ha) (_ & b & Eb & _ & Hb) H. unfold ckey. rewrite Ea, Eb. unfold rrev_le, rcn_cmp, rapprox_cmp in H.
    rewrite Ea, Eb in H. destruct (rapprox_eq ar (Fin b) (Fin a)) eqn:E.
    - pose proof (close _ _ Hb Ha E) as K. apply Qabs_Qle_condition in K. lra.
    - cbn [fcmp] in H. destruct (Qcompare_spec b a) as [K|K|K]; cbn [then_with] in H; try discriminate; lra.
  Qed.
  Lemma rpush_ok n h x : heap_ok n h -> entry_ok x -> heap_ok (n + 1) (heap_push (rrev_le ar) x h).
  Proof.
    intros [A B] Hx. split.
    - rewrite heap_push_perm. constructor; auto.
    - eapply bounded_le; [|apply (heap_push_bounded costnode (rrev_le ar) ckey entry_ok eps eps_nonneg rle_true rle_false _ h x (err_nonneg n) A Hx B)].
      rewrite err_add. change (inject_Z (Z.of_nat 1)) with 1%Q. lra.
  Qed.
  Lemma rpop_ok n h x h' : heap_ok n h -> heap_pop (rrev_le ar) h = Some (x, h') ->
    heap_ok (n + 2) h' /\ entry_ok x /\ forall y, In y h -> (ckey x <= ckey y + inject_Z (Z.of_nat n) * eps)%Q.
  Proof.
    intros [A B] E. destruct (heap_pop_perm costnode (rrev_le ar) h x h' E) as [Hp _].
    destruct (heap_pop_bounded costnode (rrev_le ar) ckey entry_ok eps eps_nonneg rle_true rle_false _ h x h' (err_nonneg n) A B E) as [C D].
    pose proof A as A'. rewrite Hp in A'. inversion A'; subst. split; [split|split]; auto.
    eapply bounded_le; [|exact C]. rewrite err_add. change (inject_Z (Z.of_nat 2)) with 2%Q. lra.
  Qed.
End Order.

Section Follow.
  Variable ar : f64 -> f64.
  Hypothesis ar_nn : forall x, not_negative x -> not_negative (ar x).
  Variables (g : graph) (alphas : list f64).
  Hypothesis wf : wf_graph g.
  Hypothesis nonneg : nonneg_metrics g.
  Hypothesis alphas_ok : Forall not_negative alphas.
  (** costs that occur, and the error of comparing them *)
  Variable R : Q -> Prop.
  Variable eps : Q.
  Hypothesis eps_nonneg : (0 <= eps)%Q.
  Hypothesis R_zero : R 0%Q.
  Hypothesis R_step : forall q e ms w, R q -> edge_metrics g e = Ok ms -> radd ar (Fin q) (rdot ar alphas ms) = Fin w -> R w.
  Hypothesis close : forall a b, R a -> R b -> rapprox_eq ar (Fin a) (Fin b) = true -> (Qabs (a - b) <= eps)%Q.

  Notation entry_ok := (entry_ok (node_count g) R).
  Notation heap_ok := (heap_ok (node_count g) R eps).
  Notation heap_ok_le := (heap_ok_le (node_count g) R eps eps_nonneg).
  Notation push_ok := (rpush_ok ar (node_count g) R eps eps_nonneg close).
  Notation pop_ok := (rpop_ok ar (node_count g) R eps eps_nonneg close).
  Notation err_nonneg := (err_nonneg eps eps_nonneg).
  Notation err_add := (err_add eps).
  Notation same_ok := (same_ok g R eps).

  Lemma rdot_from_nn al : forall ms acc, Forall not_negative al -> Forall not_negative ms -> not_negative acc -> not_negative (rdot_from ar acc al ms).
  Proof.
    induction al as [|a al IH]; intros [|m ms] acc Ha Hm Hc; cbn [rdot_from]; auto.
    inversion Ha; inversion Hm; subst. apply IH; auto. apply ar_nn, fadd_not_negative; auto. apply ar_nn. now apply fmul_not_negative.
  Qed.
  Lemma rh_relax_edge n enq d e v q ms st sh : same_ok n st sh -> v < node_count g -> (0 <= q)%Q -> R q -> edge_metrics g e = Ok ms ->
    alike (same_ok (n + 1)) (relax_edge enq d e v (radd ar (Fin q) (rdot ar alphas ms)) st)
                            (rrelax_edge_h ar enq d e v (radd ar (Fin q) (rdot ar alphas ms)) sh).
  Proof.
    intros [[S1 S2 S3 S4 S5 S6 S7] H] Hv Hq HR Em. unfold relax_edge, rrelax_edge_h. rewrite S3, S4, S1, S5, S6, S7.
    destruct (idx (get (dj_costs sh) d) v) as [old| | |] eqn:Eo; cbn [bind alike]; auto.
    destruct (fltb _ old) eqn:El.
    2: { split; [constructor; auto|]. apply (heap_ok_le n); [lia|auto]. }
    destruct (set (get (dj_preds sh) d) v (Some e)) as [ps| | |]; cbn [bind alike]; auto.
    destruct (set (get (dj_costs sh) d) v _) as [cs| | |]; cbn [bind alike]; auto.
    assert (Hw : not_negative (radd ar (Fin q) (rdot ar alphas ms))).
    { apply ar_nn, fadd_not_negative; [exact Hq|]. apply rdot_from_nn; auto; [|cbn; lra]. apply Forall_forall. intros x. now apply (nonneg e ms). }
    assert (He : entry_ok {| cn_idx := v; cn_cost := radd ar (Fin q) (rdot ar alphas ms); cn_dir := d |}).
    { split; [exact Hv|]. cbn [cn_cost]. destruct (radd ar (Fin q) (rdot ar alphas ms)) as [w| | |] eqn:Ew; cbn [not_negative] in Hw;
        try contradiction; try (unfold fltb in El; destruct old; discriminate).
      exists w. split; [reflexivity|]. split; [exact Hw|]. exact (R_step q e ms w HR Em Ew). }
    destruct enq.
    - split; [|now apply push_ok]. constructor; cbn [dj_ch dj_queue dj_costs dj_preds dj_visited dj_found dj_touched]; auto.
      rewrite heap_push_perm. now constructor.
    - split; [|apply (heap_ok_le n); [lia|auto]]. constructor; auto.
  Qed.

  Lemma rh_relax enq c q es : forall n st sh, same_ok n st sh -> cn_cost c = Fin q -> (0 <= q)%Q -> R q ->
    alike (same_ok (n + length es)) (rrelax ar g alphas enq c es st) (rrelax_h ar g alphas enq c es sh).
  Proof.
    induction es as [|e es IH]; intros n st sh H Ec Hq HR; cbn [rrelax rrelax_h length].
    - rewrite Nat.add_0_r. exact H.
    - destruct (dst_idx g (cn_dir c) e) as [v| | |] eqn:Ev; cbn [bind alike]; auto.
      rewrite (sm_ch _ _ (proj1 H)).
      destruct (if dj_ch sh then _ else _) as [down| | |]; cbn [bind alike]; auto.
      destruct down; [destruct H as [A B]; split; [auto|]; apply (heap_ok_le n); [lia|auto]|].
      destruct (edge_metrics g e) as [ms| | |] eqn:Em; cbn [bind alike]; auto.
      rewrite Ec. eapply alike_bind; [apply (rh_relax_edge n); auto; apply (wg_dst _ wf _ _ _ Ev)|].
      intros st1 sh1 H1 _ _. replace (n + S (length es)) with (n + 1 + length es) by lia. apply IH; auto.
  Qed.

  Lemma rh_iteration n st sh best c : same_ok n st sh -> entry_ok c ->
    alike (fun x y => same_ok (n + edge_count g FWD) (fst x) (fst y) /\ snd x = snd y)
      (riteration ar g alphas st best c) (riteration_h ar g alphas sh best c).
  Proof.
    intros [[S1 S2 S3 S4 S5 S6 S7] H] (Hv & q & Ec & Hq & HR). unfold riteration, riteration_h.
    unfold has_improved. rewrite S3. destruct (idx (get (dj_costs sh) (cn_dir c)) (cn_idx c)) as [x| | |]; cbn [bind alike]; auto.
    assert (Hle : heap_ok (n + edge_count g FWD) (dj_queue sh)) by (apply (heap_ok_le n); [lia|auto]).
    destruct (negb (fleb (cn_cost c) x)).
    { cbn [fst snd]. split; [split; [constructor; auto|auto]|reflexivity]. }
    assert (Hvis : alike (fun x y => same_ok n x y) (visit st c) (visit sh c)).
    { unfold visit. rewrite S1, S5. destruct (dj_ch sh) eqn:Ech; [split; [constructor; auto; congruence|auto]|].
      destruct (set _ _ _) as [v| | |]; cbn [bind alike]; auto. split; [|exact H].
      constructor; cbn [with_visited dj_ch dj_queue dj_costs dj_preds dj_visited dj_found dj_touched]; auto; congruence. }
    eapply alike_bind; [exact Hvis|]. intros st1 sh1 [[T1 T2 T3 T4 T5 T6 T7] H1] _ _.
    assert (Hmeet : rmeet ar st1 best c = rmeet ar sh1 best c).
    { unfold rmeet, is_meeting, rtotal_cost. now rewrite T1, T3, T5. }
    rewrite Hmeet. destruct (rmeet ar sh1 best c) as [[best1 over]| | |]; cbn [bind alike]; auto.
    destruct over.
    { cbn [fst snd]. split; [split|reflexivity].
      - constructor; cbn [with_found dj_ch dj_queue dj_costs dj_preds dj_visited dj_found dj_touched]; auto. now rewrite T6.
      - cbn [with_found dj_queue]. apply (heap_ok_le n); [lia|auto]. }
    destruct (starting_from g (cn_dir c) (cn_idx c)) as [es| | |] eqn:Es; cbn [bind alike]; auto.
    pose proof (degree_bound g wf _ _ _ Hv Es) as Hd. rewrite T1.
    eapply alike_bind; [apply (rh_relax _ c q es n); auto; split; [constructor; auto|auto]|].
    intros st2 sh2 [A B] _ _. cbn [alike fst snd]. split; [split; [auto|]|reflexivity]. apply (heap_ok_le (n + length es)); [lia|auto].
  Qed.

  Lemma rsearch_ext pick pick' fuel : forall k st best, (forall k' q, k <= k' -> pick k' q = pick' k' q) ->
    rsearch ar pick g alphas fuel k st best = rsearch ar pick' g alphas fuel k st best.
  Proof.
    induction fuel as [|fu IH]; intros k st best H; cbn [rsearch]; [reflexivity|].
    destruct (dj_queue st) as [|c0 q0] eqn:Eq; [reflexivity|]. rewrite (H k) by lia.
    destruct (idx _ _) as [c| | |]; cbn [bind]; auto. destruct (has_found _); auto.
    destruct (riteration ar _ _ _ _ _) as [r| | |]; cbn [bind]; auto. apply IH. intros k' q Hk. apply H. lia.
  Qed.

  Notation budget := (budget g).
  Lemma rh_search N fuel : forall k st sh best, k + fuel <= N -> same_ok (budget k) st sh ->
    exists f, alike (fun x y => same (fst x) (fst y) /\ snd x = snd y)
                (rsearch ar (follow (inject_Z (Z.of_nat (budget N)) * eps) f) g alphas fuel k st best) (rsearch_h ar g alphas fuel sh best).
  Proof.
    set (delta := (inject_Z (Z.of_nat (budget N)) * eps)%Q).
    induction fuel as [|fu IH]; intros k st sh best Hk [H Hh].
    - exists (fun _ => 0). cbn [rsearch rsearch_h]. destruct (heap_pop (rrev_le ar) (dj_queue sh)) as [[c q]|] eqn:Ep.
      + destruct (dj_queue st) as [|c0 q0] eqn:Eq; [|exact I]. pose proof (sm_que _ _ H) as Hq. rewrite Eq in Hq.
        apply Permutation_nil in Hq. rewrite Hq in Ep. discriminate.
      + apply heap_pop_none in Ep. pose proof (sm_que _ _ H) as Hq. rewrite Ep in Hq. apply Permutation_sym, Permutation_nil in Hq. rewrite Hq.
        cbn [alike fst snd]. auto.
    - cbn [rsearch_h]. destruct (heap_pop (rrev_le ar) (dj_queue sh)) as [[c q]|] eqn:Ep.
      2: { exists (fun _ => 0). cbn [rsearch]. apply heap_pop_none in Ep. pose proof (sm_que _ _ H) as Hq. rewrite Ep in Hq.
           apply Permutation_sym, Permutation_nil in Hq. rewrite Hq. cbn [alike fst snd]. auto. }
      destruct (heap_pop_perm costnode (rrev_le ar) _ _ _ Ep) as [Hp _]. destruct (pop_ok _ _ _ _ Hh Ep) as (Hq & Hc & Hmin).
      pose proof (sm_que _ _ H) as Hperm.
      assert (Hin : In c (dj_queue st)) by (rewrite Hperm, Hp; now left).
      apply In_nth_error in Hin. destruct Hin as [i Hi].
      set (st0 := with_queue st (remove_nth i (dj_queue st))). set (sh0 := with_queue sh q).
      assert (H0 : same_ok (budget k + 2) st0 sh0).
      { split; [|exact Hq]. destruct H as [A1 A2 A3 A4 A5 A6 A7].
        constructor; cbn [with_queue st0 sh0 dj_ch dj_queue dj_costs dj_preds dj_visited dj_found dj_touched]; auto.
        apply (remove_perm _ i c); auto. now rewrite Hperm. }
      assert (Hat : forall f, f k = i -> follow delta f k (dj_queue st) = i).
      { intros f Hf. rewrite <- Hf. apply (follow_at delta f k _ c); [now rewrite Hf|].
        intros x a b Hx Ea Eb. rewrite Hperm in Hx. specialize (Hmin x Hx). unfold ckey in Hmin. rewrite Ea, Eb in Hmin.
        assert (Hb : budget k <= budget N) by (unfold budget; nia).
        unfold delta. replace (budget N) with (budget k + (budget N - budget k)) by lia. rewrite err_add.
        pose proof (err_nonneg (budget N - budget k)). lra. }
      assert (Hst : forall f, f k = i -> rsearch ar (follow delta f) g alphas (S fu) k st best =
                 if has_found st0 then Ok (st0, best) else do r <- riteration ar g alphas st0 best c; rsearch ar (follow delta f) g alphas fu (S k) (fst r) (snd r)).
      { intros f Hf. cbn [rsearch]. rewrite (Hat f Hf). destruct (dj_queue st) as [|c0 q0] eqn:Eq; [destruct i; discriminate|].
        unfold idx. rewrite Hi. reflexivity. }
      destruct (has_found sh0) eqn:Ef.
      { exists (fun _ => i). rewrite Hst by reflexivity.
        assert (Ef' : has_found st0 = true). { unfold has_found in *. cbn [st0 sh0 with_queue dj_found] in *. now rewrite (sm_found _ _ H). }
        rewrite Ef'. cbn [alike fst snd]. split; [apply H0|reflexivity]. }
      assert (Ef' : has_found st0 = false). { unfold has_found in *. cbn [st0 sh0 with_queue dj_found] in *. now rewrite (sm_found _ _ H). }
      pose proof (rh_iteration _ _ _ best c H0 Hc) as Hit.
      destruct (riteration ar g alphas st0 best c) as [[st1 b1]| | |] eqn:E1; destruct (riteration_h ar g alphas sh0 best c) as [[sh1 b1']| | |] eqn:E2;
        cbn [alike fst snd] in Hit; try contradiction;
        try (exists (fun _ => i); rewrite Hst by reflexivity; rewrite Ef'; try rewrite E1; cbn [bind alike]; auto; fail).
      destruct Hit as [Hit <-]. cbn [bind fst snd].
      destruct (IH (S k) st1 sh1 b1) as (f & Hf); [lia| |].
      { destruct Hit as [I1 I2]. split; [auto|]. eapply heap_ok_le; [|exact I2]. unfold budget. lia. }
      exists (fun k' => if k' =? k then i else f k'). rewrite Hst by now rewrite Nat.eqb_refl. rewrite Ef'. try rewrite E1. cbn [bind fst snd].
      rewrite (rsearch_ext _ (follow delta f)); [exact Hf|].
      intros k' q' Hk'. unfold follow. destruct (Nat.eqb_spec k' k); [lia|reflexivity].
  Qed.

  Lemma rh_start s t st : dj_queue st = [] -> s < node_count g -> t < node_count g -> alike (same_ok 2) (start s t st) (rstart_h ar s t st).
  Proof.
    intros Eq Hs Ht. unfold start, rstart_h. rewrite Eq. destruct (set (fw (dj_costs st)) s f0); cbn [bind alike]; auto.
    destruct (set (bw (dj_costs st)) t f0); cbn [bind alike]; auto. split.
    - constructor; cbn [dj_ch dj_queue dj_costs dj_preds dj_visited dj_found dj_touched]; auto.
      rewrite heap_push_perm. constructor. symmetry. apply heap_push_perm.
    - cbn [dj_queue]. apply (push_ok 1); [apply (push_ok 0)|].
      + split; [constructor|]. intros i k x y _ Hx. destruct i; discriminate.
      + split; [exact Hs|]. exists 0%Q. split; [reflexivity|]. split; [lra|auto].
      + split; [exact Ht|]. exists 0%Q. split; [reflexivity|]. split; [lra|auto].
  Qed.
End Follow.

(** every query with the heap is a query with some queue *)
Lemma rheap_query ar g rc fuel st s t (R : Q -> Prop) eps :
  (forall x, not_negative x -> not_negative (ar x)) ->
  wf_graph g -> nonneg_metrics g -> s < node_count g -> t < node_count g ->
  (0 <= eps)%Q -> R 0%Q ->
  (forall q e ms w, R q -> edge_metrics g e = Ok ms -> radd ar (Fin q) (rdot ar (rc_alphas rc) ms) = Fin w -> R w) ->
  (forall a b, R a -> R b -> rapprox_eq ar (Fin a) (Fin b) = true -> (Qabs (a - b) <= eps)%Q) ->
  exists pick, picks_min (inject_Z (Z.of_nat (budget g fuel)) * eps) pick /\
    alike (fun x y => same (fst x) (fst y) /\ snd x = snd y)
      (rcompute_best_path ar pick fuel st g rc s t) (rcompute_best_path_h ar fuel st g rc s t).
Proof.
  intros Hnn' Hwf Hnn Hs Ht He R0 Rs Rc. set (delta := (inject_Z (Z.of_nat (budget g fuel)) * eps)%Q).
  assert (Hd : (0 <= delta)%Q) by (apply err_nonneg; auto).
  assert (Hx : picks_min delta (follow delta (fun _ => 0))) by now apply follow_picks.
  unfold rcompute_best_path, rcompute_best_path_h.
  destruct (existsb (fun a => fltb a f0) (rc_alphas rc)) eqn:Ex.
  { exists (follow delta (fun _ => 0)). split; [auto|]. cbn [alike fst snd]. split; [apply same_refl|reflexivity]. }
  assert (Ha : Forall not_negative (rc_alphas rc)).
  { apply Forall_forall. intros a Hin. apply not_lt_zero. destruct (fltb a f0) eqn:El; auto.
    assert (existsb (fun a => fltb a f0) (rc_alphas rc) = true) by (apply existsb_exists; eauto). congruence. }
  destruct (match rc_algo rc with ADijkstra => Ok false | ACHDijkstra => Ok true | AExplorator _ => Panic end) as [ch| | |];
    cbn [bind]; try (exists (follow delta (fun _ => 0)); split; [exact Hx|]; cbn [alike]; auto; fail).
  destruct (init_query (node_count g) (with_ch st ch)) as [st0| | |] eqn:E0;
    cbn [bind]; try (exists (follow delta (fun _ => 0)); split; [exact Hx|]; cbn [alike]; auto; fail).
  pose proof (rh_start ar g R eps He R0 Rc s t st0 (init_query_queue _ _ _ E0) Hs Ht) as Hst.
  destruct (start s t st0) as [st1| | |]; destruct (rstart_h ar s t st0) as [sh1| | |]; cbn [alike] in Hst; try contradiction;
    cbn [bind]; try (exists (follow delta (fun _ => 0)); split; [exact Hx|]; cbn [alike]; auto; fail).
  assert (Hb : budget g 0 = 2) by (unfold budget; lia).
  destruct (rh_search ar Hnn' g (rc_alphas rc) Hwf Hnn Ha R eps He Rs Rc fuel fuel 0 st1 sh1 None) as (f & Hf); [lia|now rewrite Hb|].
  fold delta in Hf. exists (follow delta f). split; [now apply follow_picks|].
  eapply alike_bind; [exact Hf|]. intros [x b] [y b'] [Hxy Hbb] _ _. cbn [fst snd] in *. subst b'.
  destruct b as [[m bb]|]; [|cbn [alike fst snd]; auto]. rewrite (sm_preds _ _ Hxy).
  destruct (trace g (fw (dj_preds y)) FWD fuel m); cbn [bind alike]; auto.
  destruct (trace g (bw (dj_preds y)) BWD fuel m); cbn [bind alike]; auto.
  destruct (node_id g s); cbn [bind alike]; auto. destruct (node_id g t); cbn [bind alike]; auto.
Qed.

(** *** Histories: the same without costs *)
Section Plain.
  Variable ar : f64 -> f64.
  Variables (g : graph) (alphas : list f64).

  Lemma rp_relax_edge enq d e v nc st sh : same st sh -> alike same (relax_edge enq d e v nc st) (rrelax_edge_h ar enq d e v nc sh).
  Proof.
    intros [S1 S2 S3 S4 S5 S6 S7]. unfold relax_edge, rrelax_edge_h. rewrite S3, S4, S1, S5, S6, S7.
    destruct (idx (get (dj_costs sh) d) v) as [old| | |] eqn:Eo; cbn [bind alike]; auto.
    destruct (fltb _ old) eqn:El; [|constructor; auto].
    destruct (set (get (dj_preds sh) d) v (Some e)) as [ps| | |]; cbn [bind alike]; auto.
    destruct (set (get (dj_costs sh) d) v _) as [cs| | |]; cbn [bind alike]; auto.
    destruct enq; constructor; cbn [dj_ch dj_queue dj_costs dj_preds dj_visited dj_found dj_touched]; auto.
    rewrite heap_push_perm. now constructor.
  Qed.
  Lemma rp_relax enq c es : forall st sh, same st sh -> alike same (rrelax ar g alphas enq c es st) (rrelax_h ar g alphas enq c es sh).
  Proof.
    induction es as [|e es IH]; intros st sh H; cbn [rrelax rrelax_h]; [exact H|].
    destruct (dst_idx g (cn_dir c) e) as [v| | |] eqn:Ev; cbn [bind alike]; auto.
    rewrite (sm_ch _ _ H). destruct (if dj_ch sh then _ else _) as [down| | |]; cbn [bind alike]; auto. destruct down; [exact H|].
    destruct (edge_metrics g e) as [ms| | |] eqn:Em; cbn [bind alike]; auto.
    eapply alike_bind; [now apply rp_relax_edge|]. intros st1 sh1 H1 _ _. now apply IH.
  Qed.
  Lemma rp_iteration st sh best c : same st sh ->
    alike (fun x y => same (fst x) (fst y) /\ snd x = snd y) (riteration ar g alphas st best c) (riteration_h ar g alphas sh best c).
  Proof.
    intros [S1 S2 S3 S4 S5 S6 S7]. unfold riteration, riteration_h.
    unfold has_improved. rewrite S3. destruct (idx (get (dj_costs sh) (cn_dir c)) (cn_idx c)) as [x| | |]; cbn [bind alike]; auto.
    destruct (negb (fleb (cn_cost c) x)); [cbn [fst snd]; split; [constructor; auto|reflexivity]|].
    assert (Hvis : alike same (visit st c) (visit sh c)).
    { unfold visit. rewrite S1, S5. destruct (dj_ch sh) eqn:Ech; [constructor; auto; congruence|].
      destruct (set _ _ _) as [v| | |]; cbn [bind alike]; auto.
      constructor; cbn [with_visited dj_ch dj_queue dj_costs dj_preds dj_visited dj_found dj_touched]; auto; congruence. }
    eapply alike_bind; [exact Hvis|]. intros st1 sh1 [T1 T2 T3 T4 T5 T6 T7] _ _.
    assert (Hmeet : rmeet ar st1 best c = rmeet ar sh1 best c).
    { unfold rmeet, is_meeting, rtotal_cost. now rewrite T1, T3, T5. }
    rewrite Hmeet. destruct (rmeet ar sh1 best c) as [[best1 over]| | |]; cbn [bind alike]; auto.
    destruct over.
    { cbn [fst snd]. split; [|reflexivity].
      constructor; cbn [with_found dj_ch dj_queue dj_costs dj_preds dj_visited dj_found dj_touched]; auto. now rewrite T6. }
    destruct (starting_from g (cn_dir c) (cn_idx c)) as [es| | |] eqn:Es; cbn [bind alike]; auto. rewrite T1.
    eapply alike_bind; [apply rp_relax; constructor; auto|]. intros st2 sh2 A _ _. cbn [alike fst snd]. auto.
  Qed.
  Lemma rp_search fuel : forall k st sh best, same st sh ->
    exists f : nat -> nat, alike (fun x y => same (fst x) (fst y) /\ snd x = snd y)
                (rsearch ar (fun k _ => f k) g alphas fuel k st best) (rsearch_h ar g alphas fuel sh best).
  Proof.
    induction fuel as [|fu IH]; intros k st sh best H.
    - exists (fun _ => 0). cbn [rsearch rsearch_h]. destruct (heap_pop (rrev_le ar) (dj_queue sh)) as [[c q]|] eqn:Ep.
      + destruct (dj_queue st) as [|c0 q0] eqn:Eq; [|exact I]. pose proof (sm_que _ _ H) as Hq. rewrite Eq in Hq.
        apply Permutation_nil in Hq. rewrite Hq in Ep. discriminate.
      + apply heap_pop_none in Ep. pose proof (sm_que _ _ H) as Hq. rewrite Ep in Hq. apply Permutation_sym, Permutation_nil in Hq. rewrite Hq.
        cbn [alike fst snd]. auto.
    - cbn [rsearch_h]. destruct (heap_pop (rrev_le ar) (dj_queue sh)) as [[c q]|] eqn:Ep.
      2: { exists (fun _ => 0). cbn [rsearch]. apply heap_pop_none in Ep. pose proof (sm_que _ _ H) as Hq. rewrite Ep in Hq.
           apply Permutation_sym, Permutation_nil in Hq. rewrite Hq. cbn [alike fst snd]. auto. }
      destruct (heap_pop_perm costnode (rrev_le ar) _ _ _ Ep) as [Hp _]. pose proof (sm_que _ _ H) as Hperm.
      assert (Hin : In c (dj_queue st)) by (rewrite Hperm, Hp; now left).
      apply In_nth_error in Hin. destruct Hin as [i Hi].
      set (st0 := with_queue st (remove_nth i (dj_queue st))). set (sh0 := with_queue sh q).
      assert (H0 : same st0 sh0).
      { destruct H as [A1 A2 A3 A4 A5 A6 A7].
        constructor; cbn [with_queue st0 sh0 dj_ch dj_queue dj_costs dj_preds dj_visited dj_found dj_touched]; auto.
        apply (remove_perm _ i c); auto. now rewrite Hperm. }
      assert (Hst : forall f, f k = i -> rsearch ar (fun k _ => f k) g alphas (S fu) k st best =
                 if has_found st0 then Ok (st0, best) else do r <- riteration ar g alphas st0 best c; rsearch ar (fun k _ => f k) g alphas fu (S k) (fst r) (snd r)).
      { intros f Hf. cbn [rsearch]. rewrite Hf. destruct (dj_queue st) as [|c0 q0] eqn:Eq; [destruct i; discriminate|].
        unfold idx. rewrite Hi. reflexivity. }
      destruct (has_found sh0) eqn:Ef.
      { exists (fun _ => i). rewrite Hst by reflexivity.
        assert (Ef' : has_found st0 = true). { unfold has_found in *. cbn [st0 sh0 with_queue dj_found] in *. now rewrite (sm_found _ _ H). }
        rewrite Ef'. cbn [alike fst snd]. split; [apply H0|reflexivity]. }
      assert (Ef' : has_found st0 = false). { unfold has_found in *. cbn [st0 sh0 with_queue dj_found] in *. now rewrite (sm_found _ _ H). }
      pose proof (rp_iteration _ _ best c H0) as Hit.
      destruct (riteration ar g alphas st0 best c) as [[st1 b1]| | |] eqn:E1; destruct (riteration_h ar g alphas sh0 best c) as [[sh1 b1']| | |] eqn:E2;
        cbn [alike fst snd] in Hit; try contradiction;
        try (exists (fun _ => i); rewrite Hst by reflexivity; rewrite Ef'; try rewrite E1; cbn [bind alike]; auto; fail).
      destruct Hit as [Hit <-]. cbn [bind fst snd].
      destruct (IH (S k) st1 sh1 b1 Hit) as (f & Hf).
      exists (fun k' => if k' =? k then i else f k'). rewrite Hst by now rewrite Nat.eqb_refl. rewrite Ef'. cbn [bind fst snd].
      rewrite (rsearch_ext ar g alphas _ (fun k _ => f k)); [exact Hf|].
      intros k' q' Hk'. destruct (Nat.eqb_spec k' k); [lia|reflexivity].
  Qed.
End Plain.

Lemma rp_query ar g rc fuel st sh s t : same st sh ->
  exists pick, alike (fun x y => same (fst x) (fst y) /\ snd x = snd y)
      (rcompute_best_path ar pick fuel st g rc s t) (rcompute_best_path_h ar fuel sh g rc s t).
Proof.
  intros H. unfold rcompute_best_path, rcompute_best_path_h.
  destruct (existsb (fun a => fltb a f0) (rc_alphas rc)) eqn:Ex.
  { exists exact_pick. cbn [alike fst snd]. split; [auto|reflexivity]. }
  destruct (match rc_algo rc with ADijkstra => Ok false | ACHDijkstra => Ok true | AExplorator _ => Panic end) as [ch| | |];
    cbn [bind]; try (exists exact_pick; cbn [alike]; auto; fail).
  rewrite (init_query_same _ _ _ ch H).
  destruct (init_query (node_count g) (with_ch sh ch)) as [st0| | |] eqn:E0;
    cbn [bind]; try (exists exact_pick; cbn [alike]; auto; fail).
  assert (Hst : alike same (start s t st0) (rstart_h ar s t st0)).
  { unfold start, rstart_h. destruct (set (fw (dj_costs st0)) s f0); cbn [bind alike]; auto.
    destruct (set (bw (dj_costs st0)) t f0); cbn [bind alike]; auto.
    constructor; cbn [dj_ch dj_queue dj_costs dj_preds dj_visited dj_found dj_touched]; auto.
    rewrite heap_push_perm. constructor. symmetry. apply heap_push_perm. }
  destruct (start s t st0) as [st1| | |]; destruct (rstart_h ar s t st0) as [sh1| | |]; cbn [alike] in Hst; try contradiction;
    cbn [bind]; try (exists exact_pick; cbn [alike]; auto; fail).
  destruct (rp_search ar g (rc_alphas rc) fuel 0 st1 sh1 None Hst) as (f & Hf).
  exists (fun k _ => f k).
  eapply alike_bind; [exact Hf|]. intros [x b] [y b'] [Hxy Hbb] _ _. cbn [fst snd] in *. subst b'.
  destruct b as [[m bb]|]; [|cbn [alike fst snd]; auto]. rewrite (sm_preds _ _ Hxy).
  destruct (trace g (fw (dj_preds y)) FWD fuel m); cbn [bind alike]; auto.
  destruct (trace g (bw (dj_preds y)) BWD fuel m); cbn [bind alike]; auto.
  destruct (node_id g s); cbn [bind alike]; auto. destruct (node_id g t); cbn [bind alike]; auto.
Qed.

Lemma rp_history sh : rhistory_h sh -> exists st, rhistory st /\ same st sh.
Proof.
  induction 1 as [|ar fuel sh g rc s t sh' r Hh (st & Hst & Hs) E].
  - exists dijkstra_new. split; [constructor|apply same_refl].
  - destruct (rp_query ar g rc fuel st sh s t Hs) as (pick & Ha). rewrite E in Ha.
    destruct (rcompute_best_path ar pick fuel st g rc s t) as [[st' r']| | |] eqn:E'; cbn [alike] in Ha; try contradiction.
    exists st'. split; [exact (rhistory_query _ _ _ _ _ _ _ _ _ _ Hst E')|apply Ha].
Qed.

Lemma rheap_object ar fuel st sh g rc s t : same st sh -> answer (rcompute_best_path_h ar fuel st g rc s t) = answer (rcompute_best_path_h ar fuel sh g rc s t).
Proof.
  intros H. unfold rcompute_best_path_h. destruct (existsb (fun a => fltb a f0) (rc_alphas rc)); [reflexivity|].
  destruct (match rc_algo rc with ADijkstra => Ok false | ACHDijkstra => Ok true | AExplorator _ => Panic end) as [ch| | |]; auto.
  cbn [bind]. now rewrite (init_query_same _ _ _ ch H).
Qed.
(** the heap answers like some queue that errs by up to [n * eps] *)
Lemma rheap_run ar g rc fuel sh s t (R : Q -> Prop) eps :
  (forall x, not_negative x -> not_negative (ar x)) ->
  wf_graph g -> nonneg_metrics g -> rhistory_h sh -> s < node_count g -> t < node_count g ->
  (0 <= eps)%Q -> R 0%Q ->
  (forall q e ms w, R q -> edge_metrics g e = Ok ms -> radd ar (Fin q) (rdot ar (rc_alphas rc) ms) = Fin w -> R w) ->
  (forall a b, R a -> R b -> rapprox_eq ar (Fin a) (Fin b) = true -> (Qabs (a - b) <= eps)%Q) ->
  exists st pick, rhistory st /\ capacity st = capacity sh /\
    picks_min (inject_Z (Z.of_nat (2 + (edge_count g FWD + 2) * fuel)) * eps) pick /\
    answer (rcompute_best_path ar pick fuel st g rc s t) = answer (rcompute_best_path_h ar fuel sh g rc s t).
Proof.
  intros Ha Hwf Hnn Hh Hs Ht He R0 Rs Rc. destruct (rp_history sh Hh) as (st & Hst & Hsame).
  destruct (rheap_query ar g rc fuel st s t R eps Ha Hwf Hnn Hs Ht He R0 Rs Rc) as (pick & Hp & Hal).
  exists st, pick. split; [auto|]. split; [unfold capacity; now rewrite (sm_costs _ _ Hsame)|]. split; [exact Hp|].
  rewrite (alike_answer _ _ Hal). now apply rheap_object.
Qed.
