(** Searching as it runs always answers, whatever the weights are *)
From Coq Require Import List Bool Arith Lia ZArith QArith Permutation.
From Verif Require Import Base F64 Lib ModelUnits ModelConfig ModelGraph ModelBuild ModelDijkstra ModelHeap ModelRounded ModelRoundedHeap
  Spec SpecRouting SpecRounded SpecRoundedHeap AbsSearch ProofDijkstra ProofRouting ProofRounded ProofRoundedRun ProofHeap ProofHeapSearch ProofRoundedHeap
  ProofRoundedAny ProofOverflow ProofExploreEnds PropsRouting ExamplesRouting ProofRoundedEnds.
Import ListNotations.
Open Scope nat_scope.

(** *** the heap delivers entries it has *)
Definition clip (f : nat -> nat) (k : nat) (q : list costnode) : nat := if f k <? length q then f k else 0.
Lemma clip_valid f : valid_pick (clip f).
Proof. intros k q Hq. unfold clip. destruct (Nat.ltb_spec (f k) (length q)); auto. destruct q; [congruence|cbn; lia]. Qed.

Section Valid.
  Variable ar : f64 -> f64.
  Variable g : graph.
  Variable alphas : list f64.
  Lemma rv_search fuel : forall k st sh best, same st sh ->
    exists f : nat -> nat, alike (fun x y => same (fst x) (fst y) /\ snd x = snd y)
                (rsearch ar (clip f) g alphas fuel k st best) (rsearch_h ar g alphas fuel sh best).
  Proof.
    induction fuel as [|fu IH]; intros k st sh best H.
    - exists (fun _ => 0). cbn [rsearch rsearch_h]. destruct (heap_pop (rrev_le ar) (dj_queue sh)) as [[c q]|] eqn:Ep.
      + destruct (dj_queue st) as [|c0 q0] eqn:Eq; [|exact I]. pose proof (sm_que _ _ H) as Hq. rewrite Eq in Hq.
        apply Permutation_nil in Hq. rewrite Hq in Ep. discriminate.
      + apply heap_pop_none in Ep. pose proof (sm_que _ _ H) as Hq. rewrite Ep in Hq. apply Permutation_sym, Permutation_nil in Hq. rewrite Hq.
        cbn [alike fst snd]. auto.
    - cbn [rsearch_h]. destruct (heap_pop (rrev_le ar) (dj_queue sh)) as [[c q]|] eqn:Ep.
      2: { exists (fun _ => 0). cbn [rsearch]. apply heap_pop_none in Ep. pose proof (sm_que _ _ H) as Hq. rewrite Ep in Hq.
           apply Permutation_sym, Permutation_nil in Hq. rewrite Hq. cbn [alike fst snd]. auto. }
      destruct (heap_pop_perm costnode (rrev_le ar) _ _ _ Ep) as [Hp _]. pose proof (sm_que _ _ H) as Hperm.
      assert (Hin : In c (dj_queue st)) by (rewrite Hperm, Hp; now left).
      apply In_nth_error in Hin. destruct Hin as [i Hi].
      set (st0 := with_queue st (remove_nth i (dj_queue st))). set (sh0 := with_queue sh q).
      assert (H0 : same st0 sh0).
      { destruct H as [A1 A2 A3 A4 A5 A6 A7].
        constructor; cbn [with_queue st0 sh0 dj_ch dj_queue dj_costs dj_preds dj_visited dj_found dj_touched]; auto.
        apply (remove_perm _ i c); auto. now rewrite Hperm. }
      assert (Hst : forall f, f k = i -> rsearch ar (clip f) g alphas (S fu) k st best =
                 if has_found st0 then Ok (st0, best) else do r <- riteration ar g alphas st0 best c; rsearch ar (clip f) g alphas fu (S k) (fst r) (snd r)).
      { intros f Hf. cbn [rsearch]. assert (Ec : clip f k (dj_queue st) = i).
        { unfold clip. rewrite Hf. destruct (Nat.ltb_spec i (length (dj_queue st))) as [|Hge]; [reflexivity|]. apply nth_error_None in Hge. congruence. }
        rewrite Ec. destruct (dj_queue st) as [|c0 q0] eqn:Eq; [destruct i; discriminate|].
        unfold idx. rewrite Hi. reflexivity. }
      destruct (has_found sh0) eqn:Ef.
      { exists (fun _ => i). rewrite Hst by reflexivity.
        assert (Ef' : has_found st0 = true). { unfold has_found in *. cbn [st0 sh0 with_queue dj_found] in *. now rewrite (sm_found _ _ H). }
        rewrite Ef'. cbn [alike fst snd]. split; [apply H0|reflexivity]. }
      assert (Ef' : has_found st0 = false). { unfold has_found in *. cbn [st0 sh0 with_queue dj_found] in *. now rewrite (sm_found _ _ H). }
      pose proof (rp_iteration ar g alphas _ _ best c H0) as Hit.
      destruct (riteration ar g alphas st0 best c) as [[st1 b1]| | |] eqn:E1; destruct (riteration_h ar g alphas sh0 best c) as [[sh1 b1']| | |] eqn:E2;
        cbn [alike fst snd] in Hit; try contradiction;
        try (exists (fun _ => i); rewrite Hst by reflexivity; rewrite Ef'; try rewrite E1; cbn [bind alike]; auto; fail).
      destruct Hit as [Hit <-]. cbn [bind fst snd].
      destruct (IH (S k) st1 sh1 b1 Hit) as (f & Hf).
      exists (fun k' => if k' =? k then i else f k'). rewrite Hst by now rewrite Nat.eqb_refl. rewrite Ef'. cbn [bind fst snd].
      rewrite (rsearch_ext ar g alphas _ (clip f)); [exact Hf|].
      intros k' q' Hk'. unfold clip. destruct (Nat.eqb_spec k' k); [lia|reflexivity].
  Qed.
End Valid.

Lemma rv_query ar g rc fuel st sh s t : same st sh ->
  exists pick, valid_pick pick /\ alike (fun x y => same (fst x) (fst y) /\ snd x = snd y)
      (rcompute_best_path ar pick fuel st g rc s t) (rcompute_best_path_h ar fuel sh g rc s t).
Proof.
  intros H. unfold rcompute_best_path, rcompute_best_path_h.
  destruct (existsb (fun a => fltb a f0) (rc_alphas rc)) eqn:Ex.
  { exists exact_pick. split; [apply exact_valid|]. cbn [alike fst snd]. split; [auto|reflexivity]. }
  destruct (match rc_algo rc with ADijkstra => Ok false | ACHDijkstra => Ok true | AExplorator _ => Panic end) as [ch| | |];
    cbn [bind]; try (exists exact_pick; split; [apply exact_valid|]; cbn [alike]; auto; fail).
  rewrite (init_query_same _ _ _ ch H).
  destruct (init_query (node_count g) (with_ch sh ch)) as [st0| | |] eqn:E0;
    cbn [bind]; try (exists exact_pick; split; [apply exact_valid|]; cbn [alike]; auto; fail).
  assert (Hst : alike same (start s t st0) (rstart_h ar s t st0)).
  { unfold start, rstart_h. destruct (set (fw (dj_costs st0)) s f0); cbn [bind alike]; auto.
    destruct (set (bw (dj_costs st0)) t f0); cbn [bind alike]; auto.
    constructor; cbn [dj_ch dj_queue dj_costs dj_preds dj_visited dj_found dj_touched]; auto.
    rewrite heap_push_perm. constructor. symmetry. apply heap_push_perm. }
  destruct (start s t st0) as [st1| | |]; destruct (rstart_h ar s t st0) as [sh1| | |]; cbn [alike] in Hst; try contradiction;
    cbn [bind]; try (exists exact_pick; split; [apply exact_valid|]; cbn [alike]; auto; fail).
  destruct (rv_search ar g (rc_alphas rc) fuel 0 st1 sh1 None Hst) as (f & Hf).
  exists (clip f). split; [apply clip_valid|].
  eapply alike_bind; [exact Hf|]. intros [x b] [y b'] [Hxy Hbb] _ _. cbn [fst snd] in *. subst b'.
  destruct b as [[m bb]|]; [|cbn [alike fst snd]; auto]. rewrite (sm_preds _ _ Hxy).
  destruct (trace g (fw (dj_preds y)) FWD fuel m); cbn [bind alike]; auto.
  destruct (trace g (bw (dj_preds y)) BWD fuel m); cbn [bind alike]; auto.
  destruct (node_id g s); cbn [bind alike]; auto. destruct (node_id g t); cbn [bind alike]; auto.
Qed.


(** *** no index is out of range *)
Section Works.
  Variable ar : f64 -> f64.
  Variable g : graph.
  Hypothesis wf : wf_graph g.
  Hypothesis rt : routable g.
  Variable alphas : list f64.

  Definition sized (st : dijkstra) : Prop := forall d v, v < node_count g ->
    v < length (get (dj_costs st) d) /\ v < length (get (dj_preds st) d) /\ (dj_ch st = false -> v < length (get (dj_visited st) d)).


  Lemma sized_relax_edge enqueue d e v x st : sized st -> v < node_count g -> exists st', relax_edge enqueue d e v x st = Ok st' /\ sized st'.
  Proof.
    intros H Hv. destruct (H d v Hv) as (Lc & Lp & _). unfold relax_edge. destruct (idx_lt _ _ Lc) as (old & ->). cbn [bind].
    destruct (fltb x old); [|eauto]. rewrite (set_lt _ _ _ Lp), (set_lt _ _ _ Lc). cbn [bind]. eexists. split; [reflexivity|].
    intros d' w Hw. destruct (H d' w Hw) as (A & B & C). cbn [dj_costs dj_preds dj_ch dj_visited].
    destruct (dir_dec d' d) as [->|N]; [rewrite !get_put_same, !upd_length|rewrite !get_put_other by auto]; auto.
  Qed.

  Lemma sized_relax enqueue c : cn_idx c < node_count g -> forall es st, sized st -> (forall e, In e es -> exists v, dst_idx g (cn_dir c) e = Ok v) ->
    exists st', rrelax ar g alphas enqueue c es st = Ok st' /\ sized st'.
  Proof.
    intros Hc. assert (LV : forall v, v < node_count g -> exists l, node_level g v = Ok l).
    { intros v Hv. unfold node_level. apply idx_lt. now rewrite (wg_levels g wf). }
    induction es as [|e es IH]; intros st H Hes; cbn [rrelax]; [eauto|].
    destruct (Hes e (or_introl eq_refl)) as (v & Ev). rewrite Ev. cbn [bind]. destruct (wg_dst g wf _ _ _ Ev) as [Hv _].
    destruct (LV _ Hc) as (lu & Elu), (LV _ Hv) as (lv & Elv). rewrite Elu, Elv. cbn [bind].
    set (down := if dj_ch st then Ok (lv <? lu) else Ok false). assert (D : exists b, down = Ok b) by (subst down; destruct (dj_ch st); eauto).
    destruct D as (b & ->). cbn [bind]. destruct b; [eauto|].
    destruct (wg_metrics g wf _ _ _ Ev) as (ms & ->). cbn [bind].
    destruct (sized_relax_edge enqueue (cn_dir c) e v (radd ar (cn_cost c) (rdot ar alphas ms)) st H Hv) as (st' & -> & H'). cbn [bind].
    apply IH; auto. intros f Hf. apply Hes. now right.
  Qed.

  Lemma sized_iteration st best c : sized st -> cn_idx c < node_count g ->
    exists st' best', riteration ar g alphas st best c = Ok (st', best') /\ sized st'.
  Proof.
    intros H Hc. unfold riteration, has_improved. destruct (H (cn_dir c) _ Hc) as (Lc & _ & Lv). destruct (idx_lt _ _ Lc) as (x & ->). cbn [bind].
    destruct (fleb (cn_cost c) x); cbn [negb]; [|eauto].
    assert (V : exists st1, visit st c = Ok st1 /\ sized st1).
    { unfold visit. destruct (dj_ch st) eqn:Ech; [eauto|]. rewrite (set_lt _ _ _ (Lv eq_refl)). cbn [bind]. eexists. split; [reflexivity|].
      intros d v Hv. destruct (H d v Hv) as (A & B & C). cbn [with_visited dj_costs dj_preds dj_visited dj_ch]. split; auto. split; auto. intros _.
      destruct (dir_dec d (cn_dir c)) as [->|N]; [rewrite get_put_same, upd_length|rewrite get_put_other by auto]; auto. }
    destruct V as (st1 & -> & H1). cbn [bind].
    assert (T : exists y, rtotal_cost ar st1 c = Ok y).
    { unfold rtotal_cost. destruct (H1 FWD _ Hc) as (F & _), (H1 BWD _ Hc) as (B & _). cbn [get] in F, B.
      destruct (idx_lt _ _ F) as (y & ->), (idx_lt _ _ B) as (z & ->). cbn [bind]. eauto. }
    destruct T as (y & Ey).
    assert (M : exists b o, rmeet ar st1 best c = Ok (b, o)).
    { unfold rmeet. destruct best as [[m b]|]; [destruct (fgtb _ _); [eauto|]; rewrite Ey; cbn [bind]; eauto|].
      assert (I : exists b, is_meeting st1 c = Ok b).
      { unfold is_meeting. destruct (H1 (opp (cn_dir c)) _ Hc) as (A & _ & V). destruct (dj_ch st1).
        - destruct (idx_lt _ _ A) as (z & ->). cbn [bind]. eauto.
        - exact (idx_lt _ _ (V eq_refl)). }
      destruct I as (b & ->). cbn [bind]. destruct b; [rewrite Ey; cbn [bind]|]; eauto. }
    destruct M as (b & o & ->). cbn [bind]. destruct o; [do 2 eexists; split; [reflexivity|exact H1]|].
    destruct (wg_start g wf (cn_dir c) _ Hc) as [(es & -> & _ & Hes)|[K _]]; [|exfalso; exact (rt _ _ Hc K)]. cbn [bind].
    destruct (sized_relax (dj_ch st1 || match b with None => true | _ => false end) c Hc es st1 H1) as (st2 & -> & H2).
    { intros e He. apply Hes in He. destruct (wg_dst g wf _ _ _ He) as (_ & u & Eu). exists u. now destruct (cn_dir c). }
    cbn [bind]. eauto.
  Qed.

  Hypothesis ar_inf : ar PInf = PInf.
  Hypothesis ar_nan : ar NaN = NaN.
  Variables s t : nat.
  Hypothesis Hs : s < node_count g.
  Hypothesis Ht : t < node_count g.

  Lemma search_works pick : valid_pick pick -> forall fuel k st best, sized st -> ok_state g s t st -> met g s t st best ->
    rsearch ar pick g alphas fuel k st best = Diverge \/ exists st' best', rsearch ar pick g alphas fuel k st best = Ok (st', best') /\ sized st'.
  Proof.
    intros Hv. induction fuel as [|fuel IH]; intros k st best H O M; cbn [rsearch].
    - destruct (dj_queue st); eauto.
    - destruct (dj_queue st) as [|q0 qs] eqn:Eq; [eauto|]. rewrite <- Eq.
      assert (L : pick k (dj_queue st) < length (dj_queue st)) by (apply Hv; rewrite Eq; discriminate).
      destruct (idx_lt _ _ L) as (c & Ec). rewrite Ec. cbn [bind]. apply idx_ok in Ec.
      set (st0 := with_queue st (remove_nth (pick k (dj_queue st)) (dj_queue st))) in *.
      assert (O0 : ok_state g s t st0).
      { destruct O as [Op Oq Oc Ov]. constructor; auto. intros x Hx. apply Oq. exact (remove_nth_in _ _ _ Hx). }
      assert (H0 : sized st0) by exact H.
      destruct (has_found st0); [eauto|].
      pose proof (os_queue _ _ _ _ O c (nth_error_In _ _ Ec)) as G.
      destruct (sized_iteration st0 best c H0 (proj1 G)) as (st1 & b1 & E1 & H1). rewrite E1. cbn [bind fst snd].
      destruct (any_iteration ar ar_inf ar_nan g wf s t alphas st0 best c st1 b1 O0 G M E1) as [O1 M1]. auto.
  Qed.

  Lemma sized_start ch st0 : fresh g ch st0 -> exists st1, start s t st0 = Ok st1 /\ sized st1.
  Proof.
    intros F. unfold start. pose proof (f_cost _ _ _ F FWD s Hs) as Es. pose proof (f_cost _ _ _ F BWD t Ht) as Et. cbn [get] in Es, Et.
    rewrite (nth_set _ _ f0 _ Es), (nth_set _ _ f0 _ Et). cbn [bind]. eexists. split; [reflexivity|].
    intros d v Hv. cbn [dj_costs dj_preds dj_visited dj_ch].
    assert (A : v < length (get (dj_costs st0) d)) by (apply nth_error_Some; rewrite (f_cost _ _ _ F d v Hv); discriminate).
    split; [destruct d; cbn [get fw bw] in *; now rewrite upd_length|]. split.
    - apply nth_error_Some. rewrite (f_pred _ _ _ F d v Hv). discriminate.
    - rewrite (f_ch _ _ _ F). intros E. apply nth_error_Some. rewrite (f_vis _ _ _ F E d v Hv). discriminate.
  Qed.

  Hypothesis up0 : forall e ms x, edge_metrics g e = Ok ms -> fltb (radd ar f0 (rdot ar alphas ms)) x = true ->
    fleb f0 (radd ar f0 (rdot ar alphas ms)) = true.
  Hypothesis up : forall y e ms x, edge_metrics g e = Ok ms -> fltb (radd ar (ar y) (rdot ar alphas ms)) x = true -> fleb f0 (ar y) = true ->
    fleb (ar y) (radd ar (ar y) (rdot ar alphas ms)) = true.

  Lemma query_works ch pick fuel st0 : valid_pick pick -> fresh g ch st0 -> 2 + 2 * powers (edge_count g FWD) (node_count g) <= fuel ->
    exists st' r, rquery ar g alphas s t pick fuel st0 = Ok (st', r).
  Proof.
    intros Hv F L2. pose proof (end_query ar ar_inf ar_nan g wf s t Hs Ht alphas up0 up ch pick fuel st0 F L2) as Hd. unfold rquery in *.
    destruct (sized_start ch st0 F) as (st1 & E1 & S1). rewrite E1 in *. cbn [bind] in *.
    pose proof (any_start g s t Hs Ht ch _ _ F E1) as O1. assert (M1 : met g s t st1 None) by (intros ? ? K; discriminate K).
    destruct (search_works pick Hv fuel 0 st1 None S1 O1 M1) as [K|(st2 & best & E2 & S2)]; [rewrite K in Hd; now contradiction Hd|].
    destruct (end_start ar g s t alphas ch st0 st1 F E1) as [H1 Q1].
    pose proof (proj1 (end_search ar ar_inf ar_nan g wf s t Hs Ht alphas up0 up pick fuel 0 st1 None H1 O1 M1) _ _ E2) as H2.
    rewrite E2 in *. cbn [bind fst snd] in *. destruct best as [[m b]|]; [|eauto].
    destruct (any_search ar ar_inf ar_nan g wf s t alphas pick _ _ _ _ _ _ O1 M1 E2) as [O2 M2]. destruct (M2 m b eq_refl) as [Gf Gb].
    assert (T : forall d, got g s t st2 d m -> exists l, trace g (get (dj_preds st2) d) d fuel m = Ok l) by (intros d G; exact (end_trace ar g wf s t Hs Ht alphas st2 d m fuel H2 O2 G L2)).
    destruct (T FWD Gf) as (lf & Ef), (T BWD Gb) as (lb & Eb). cbn [get] in Ef, Eb. rewrite Ef, Eb. cbn [bind].
    unfold node_id. destruct (idx_lt _ _ Hs) as (x & Ex), (idx_lt _ _ Ht) as (y & Ey). rewrite Ex, Ey. cbn [bind]. eauto.
  Qed.
End Works.

(** *** answers of the program *)
Section Overflow.
  Variables (u eta : Q) (rnd : Q -> Q) (top : Q).
  Hypothesis R : rounding u eta rnd.
  Hypothesis top_nonneg : (0 <= top)%Q.
  Notation ar := (ofin rnd top).

  Lemma ofin_query_works g alphas s t ch pick fuel st0 : wf_graph g -> routable g -> nonneg_metrics g -> Forall not_negative alphas ->
    s < node_count g -> t < node_count g -> valid_pick pick -> fresh g ch st0 ->
    2 + 2 * powers (edge_count g FWD) (node_count g) <= fuel ->
    exists st' r, rquery ar g alphas s t pick fuel st0 = Ok (st', r).
  Proof.
    intros Hwf Hrt Hg Ha Hs Ht Hv F L2. apply (query_works ar) with (ch := ch); auto.
    - intros e ms x Em Lt. pose proof (ofin_weight u eta rnd top R top_nonneg g alphas e ms Hg Ha Em) as W. set (w := rdot ar alphas ms) in *.
      assert (P : not_negative (radd ar f0 w)).
      { apply (ofin_nn u eta rnd R); auto. apply fadd_not_negative; auto. cbn. apply Qle_refl. }
      destruct (radd ar f0 w) as [q| | |]; cbn [not_negative] in P; try contradiction; try reflexivity.
      + unfold fleb, f0. cbn [fcmp]. destruct (Qcompare_spec 0 q); auto. exfalso. exact (Qlt_not_le _ _ H P).
      + destruct x; discriminate Lt.
    - intros y e ms x Em Lt P. apply (ofin_up u eta rnd top R); auto.
      + exact (ofin_weight u eta rnd top R top_nonneg g alphas e ms Hg Ha Em).
      + intros E. rewrite E in Lt. destruct x; discriminate Lt.
  Qed.

  Lemma ofin_path_h_works g fuel st rc s t : wf_graph g -> routable g -> nonneg_metrics g -> rhistory_h st -> roomy st g ->
    (node_count g <> 2 -> capacity st <= node_count g) ->
    s < node_count g -> t < node_count g -> (forall i, rc_algo rc <> AExplorator i) ->
    2 + 2 * powers (edge_count g FWD) (node_count g) <= fuel ->
    exists st' r, rcompute_best_path_h ar fuel st g rc s t = Ok (st', r).
  Proof.
    intros Hwf Hrt Hg Hh Hr Hc Hs Ht Hal L2. destruct (rp_history st Hh) as (st0 & Hh0 & S0).
    destruct (rv_query ar g rc fuel st0 st s t S0) as (pick & Hv & K).
    assert (Cap : capacity st0 = capacity st) by (unfold capacity; now rewrite (sm_costs _ _ S0)).
    enough (A : exists st' r, rcompute_best_path ar pick fuel st0 g rc s t = Ok (st', r)).
    { destruct A as (st' & r & E). rewrite E in K. destruct (rcompute_best_path_h ar fuel st g rc s t) as [[x y]| | |]; cbn [alike] in K; try contradiction. eauto. }
    destruct (existsb (fun a => fltb a f0) (rc_alphas rc)) eqn:Ex; [unfold rcompute_best_path; rewrite Ex; eauto|].
    assert (Ha : Forall not_negative (rc_alphas rc)) by (apply Forall_forall; intros a Hin; destruct (fltb a f0) eqn:El;
      [exfalso; assert (existsb (fun a => fltb a f0) (rc_alphas rc) = true) by (apply existsb_exists; eauto); congruence|
       destruct a as [q| | |]; cbn in *; auto; [|discriminate]; unfold fltb, f0 in El; cbn [fcmp] in El; destruct (Qcompare_spec q 0); [rewrite H; apply Qle_refl|discriminate|apply Qlt_le_weak; auto]]).
    destruct (rcompute_prepared ar pick fuel st0 g rc s t Hh0) as (st1 & F & ->); auto.
    - unfold roomy in *. now rewrite Cap.
    - now rewrite Cap.
    - exact (ofin_query_works g (rc_alphas rc) s t (is_ch (rc_algo rc)) pick fuel st1 Hwf Hrt Hg Ha Hs Ht Hv F L2).
  Qed.
End Overflow.
