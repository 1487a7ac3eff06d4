(** C68: the explorator as it runs, with the arithmetic of `f64` and std's
    BinaryHeap *)
From Coq Require Import String List Bool Arith ZArith QArith Qabs Lia Lqa NArith.
From Verif Require Import Base F64 Lib ModelApprox ModelUnits ModelConfig ModelGraph ModelBuild ModelDijkstra ModelExplorator
  ModelHeap ModelRounded ModelRoundedHeap ModelRoundedExplorator
  Spec SpecRouting SpecPaths SpecExplorator SpecRounded SpecRoundedHeap SpecRoundedExplorator ProofDijkstra ProofRouting ProofPaths ProofExplorator ProofRounded ProofRoundedRun
  ProofHeap ProofHeapSearch ProofRoundedHeap ProofRounding64 ProofOverflow PropsRounded PropsOverflow PropsRoundedHeap ProofCompare64 ProofRoundedAny ProofRoundedExplorator
  ProofRoundedExploratorCosts Examples ExamplesRouting PropsExplorator.
Import ListNotations.
Open Scope list_scope.
Open Scope nat_scope.

Lemma built_wf hav c ch1 ch2 es ns g0 g : 1 <= ch1 -> 1 <= ch2 -> build hav c ch1 ch2 es ns = Ok g0 -> remeasured g0 g -> wf_graph g.
Proof. intros H1 H2 E Hg. exact (remeasured_wf _ _ Hg (build_wf _ _ _ _ _ _ _ H1 H2 E)). Qed.

Section Run.
  Variable T : Type.
  Variable tri_new : nat -> T.
  Variable tri_add : T -> list f64 -> option (T * nat).
  Variable tri_cells : T -> list (nat * list nat).
  Variable solve : list (list f64) -> list f64 -> option (list f64).

  Lemma rrun_split ar fuel rounds g rc s t st st' ps :
    rfully_explorate ar fuel T tri_new tri_add tri_cells solve rounds g rc s t st = Ok (st', ps) ->
    exists st1 tol new s1 s2,
      let q0 := xquery_with g rc s t in
      let q := {| xq_src := s; xq_dst := t; xq_rc := rc; xq_dim := metric_dim g; xq_tdim := xq_tdim q0; xq_tol := tol; xq_imc := xq_imc q0 |} in
      rexplore_initial_paths ar fuel g q0 st = Ok (st1, tol, new) /\
      rupdate ar T tri_add q new (mkXState T (tri_new (xq_tdim q0)) [] [] [] false) = Ok s1 /\
      (if (1 <? xq_tdim q0) && (xq_tdim q0 <? length (xs_found T s1))
       then rexplore ar fuel T tri_add tri_cells solve g q rounds st1 s1 else Ok (st1, s1)) = Ok (st', s2) /\
      collect (xs_tolerated T s2) (xs_found T s2) = Ok ps.
  Proof.
    unfold rfully_explorate. intros E. apply bind_ok in E. destruct E as ([[st1 tol] new] & E1 & E).
    apply bind_ok in E. destruct E as (s1 & E2 & E). apply bind_ok in E. destruct E as ([st2 s2] & E3 & E).
    apply bind_ok in E. destruct E as (ps' & E4 & E). injection E as <- <-. cbn [fst snd] in *.
    exists st1, tol, new, s1, s2. auto.
  Qed.

  Lemma rasked_tol ar fuel g q q' al r : xq_src q = xq_src q' -> xq_dst q = xq_dst q' -> xq_rc q = xq_rc q' ->
    rasked ar fuel g q al r -> rasked ar fuel g q' al r.
  Proof. intros A B C (st & st' & Hh & Hr & E). exists st, st'. unfold rxbest in *. rewrite <- A, <- B, <- C. auto. Qed.

  Lemma rinitial_ok ar fuel g q st st' tol found : rhistory_h st -> roomy st g -> xq_tol q = repeat PInf (xq_dim q) ->
    rexplore_initial_paths ar fuel g q st = Ok (st', tol, found) ->
    (rhistory_h st' /\ roomy st' g) /\ (forall p, In p found -> exists al, rasked ar fuel g q al (Some p)).
  Proof.
    intros Hh Hr Et Ei. destruct (init_alphas (xq_dim q) (xq_imc q)) as [ias| | |] eqn:Eia;
      try (unfold rexplore_initial_paths in Ei; rewrite Eia in Ei; discriminate).
    destruct (rinitial_inv ar fuel g q st _ ias Hh Hr Et Eia Ei) as [A _ B C _ _]. cbn [fst snd] in *. split; auto.
    intros p Hp. destruct (B p Hp) as (al & _ & H). eauto.
  Qed.

  Lemma rrun_spec hav c ch1 ch2 es ns ar fuel rounds g0 g rc s t st st' ps :
    ar PInf = PInf -> ar NaN = NaN -> fresh_ids T tri_new tri_add ->
    1 <= ch1 -> 1 <= ch2 -> build hav c ch1 ch2 es ns = Ok g0 -> remeasured g0 g -> aligned_metrics g ->
    rhistory_h st -> roomy st g -> s < node_count g -> t < node_count g ->
    rfully_explorate ar fuel T tri_new tri_add tri_cells solve rounds g rc s t st = Ok (st', ps) ->
    exists st1 tol new, rexplore_initial_paths ar fuel g (xquery_with g rc s t) st = Ok (st1, tol, new) /\
      (rhistory_h st' /\ roomy st' g) /\
      forall p, In p ps -> (costed_road ar g s t p /\ length (p_edges p) + 2 <= 2 * node_count g) /\
        exists cs, p_costs p = Some cs /\ rapprox_le_vec ar cs tol = true.
  Proof.
    intros A1 A2 (ids & Hnew & Hadd) H1 H2 E Hg Hal Hh Hr Hs Ht Er. pose proof (built_wf _ _ _ _ _ _ _ _ H1 H2 E Hg) as W.
    destruct (rrun_split _ _ _ _ _ _ _ _ _ _ Er) as (st1 & tol & new & s1 & s2 & E1 & E2 & E3 & E4). cbv zeta in *.
    set (q0 := xquery_with g rc s t) in *.
    set (q := {| xq_src := s; xq_dst := t; xq_rc := rc; xq_dim := metric_dim g; xq_tdim := xq_tdim q0; xq_tol := tol; xq_imc := xq_imc q0 |}) in *.
    destruct (rinitial_ok _ _ _ q0 _ _ _ _ Hh Hr eq_refl E1) as ([Hh1 Hr1] & Hf).
    set (P := fun p => costed_road ar g s t p /\ length (p_edges p) + 2 <= 2 * node_count g).
    assert (HP : forall al p, rasked ar fuel g q al (Some p) -> P p).
    { intros al p Ha. exact (rasked_costed ar g fuel q al p A1 A2 W Hal Hs Ht Ha). }
    exists st1, tol, new. split; auto.
    assert (I1 : rxinv T ids ar q P s1).
    { eapply (rupdate_inv T tri_add ids Hadd ar q); [| |exact E2].
      - constructor; cbn [xs_found xs_tri xs_tolerated]; [intros ? ? []|intros ? []|constructor|intros ? []].
      - intros p Hp. destruct (Hf p Hp) as (al & Ha). apply (HP al). exact (rasked_tol _ _ _ q0 q _ _ eq_refl eq_refl eq_refl Ha). }
    assert (I2 : (rhistory_h st' /\ roomy st' g) /\ rxinv T ids ar q P s2).
    { destruct (_ && _).
      - exact (rexplore_inv T tri_add tri_cells solve ids Hadd ar fuel g q _ HP rounds _ _ _ _ Hh1 Hr1 I1 E3).
      - injection E3 as <- <-. auto. }
    destruct I2 as [Hst [J1 J2 J3 J4]]. split; auto.
    pose proof (collect_spec _ _ _ E4 J3) as F. intros p Hp. apply In_nth_error in Hp. destruct Hp as (k & Hk).
    destruct (nth_error (xs_tolerated T s2) k) as [id|] eqn:Eid.
    2:{ apply nth_error_None in Eid. pose proof (Forall2_len _ _ _ F). assert (k < length ps) by (apply nth_error_Some; congruence). lia. }
    destruct (Forall2_nth _ _ _ _ _ F Eid) as (p' & Hp' & Hlk). assert (p' = p) by congruence. subst p'.
    split; [exact (J1 id p (lookup_in _ _ _ Hlk))|].
    destruct (J4 id (nth_error_In _ _ Eid)) as (p'' & Hl'' & Ht''). assert (p'' = p) by congruence. subst p''. exact Ht''.
  Qed.

  (** Every returned path is a road that carries its ids and its costs as
      calculated, whatever the arithmetic, the metrics, the scales, the
      triangulation and the solver. *)
  Theorem C68_real hav c ch1 ch2 es ns ar fuel rounds g0 g rc s t st st' ps :
    ar PInf = PInf -> ar NaN = NaN -> fresh_ids T tri_new tri_add ->
    1 <= ch1 -> 1 <= ch2 -> build hav c ch1 ch2 es ns = Ok g0 -> remeasured g0 g -> aligned_metrics g ->
    rhistory_h st -> roomy st g -> s < node_count g -> t < node_count g ->
    rfully_explorate ar fuel T tri_new tri_add tri_cells solve rounds g rc s t st = Ok (st', ps) ->
    forall p, In p ps -> costed_road ar g s t p.
  Proof.
    intros A1 A2 Hfr H1 H2 E Hg Hal Hh Hr Hs Ht Er p Hp.
    destruct (rrun_spec _ _ _ _ _ _ _ _ _ _ _ _ _ _ _ _ _ A1 A2 Hfr H1 H2 E Hg Hal Hh Hr Hs Ht Er) as (st1 & tol & new & _ & _ & H).
    apply (H p Hp).
  Qed.

  (** and calculated in `f64`, its costs are within the tolerances found
      initially *)
  Theorem C68_tolerated hav c ch1 ch2 es ns fuel rounds g0 g rc s t st st' ps :
    fresh_ids T tri_new tri_add ->
    1 <= ch1 -> 1 <= ch2 -> build hav c ch1 ch2 es ns = Ok g0 -> remeasured g0 g -> aligned_metrics g ->
    rhistory_h st -> roomy st g -> s < node_count g -> t < node_count g ->
    rfully_explorate ieee fuel T tri_new tri_add tri_cells solve rounds g rc s t st = Ok (st', ps) ->
    exists st1 tol new, rexplore_initial_paths ieee fuel g (xquery_with g rc s t) st = Ok (st1, tol, new) /\
      forall p, In p ps ->
        exists cs, p_costs p = Some cs /\ forall i z x, nth_error cs i = Some z -> nth_error tol i = Some x -> within64 z x.
  Proof.
    intros Hfr H1 H2 E Hg Hal Hh Hr Hs Ht Er.
    destruct (rrun_spec _ _ _ _ _ _ ieee _ _ _ _ _ _ _ _ _ _ eq_refl eq_refl Hfr H1 H2 E Hg Hal Hh Hr Hs Ht Er) as (st1 & tol & new & A & _ & B).
    exists st1, tol, new. split; auto. intros p Hp. destruct (B p Hp) as (_ & cs & D & F). exists cs. split; auto.
    intros i z x Hz Hx. exact (cmp_within64 _ _ (rapprox_le_nth _ _ _ _ _ _ F Hz Hx)).
  Qed.
End Run.
Print Assumptions C68_real.
Print Assumptions C68_tolerated.

(** *** Ordinary graphs *)
Lemma unit_fits g sub i : ordinary64 g -> aligned_metrics g -> i < metric_dim g -> length sub = metric_dim g -> only i sub ->
  fits64 g (indicator sub).
Proof.
  intros Ho Hal Hi Hl Hon. split.
  - unfold indicator. rewrite map_length, Hl. exact (proj1 Ho).
  - intros e q Hq. destruct (costs_sums g sub i (ordinary_finite _ Ho) Hal Hi Hl Hon _ _ Hq) as (q' & Hq' & <-).
    inversion Hq' as [|e' es' a b Em Hb]; subst. inversion Hb; subst. destruct (ordinary_metric _ _ _ _ Ho Em) as (z & Ez & _ & Hz).
    injection Ez as ->. rewrite Qplus_0_r. exact Hz.
Qed.
Lemma road_sums g i : wf_graph g -> finite_metrics g -> aligned_metrics g -> i < metric_dim g ->
  forall s l t, connects g s l t -> exists q, sums g i l q.
Proof.
  intros W Hf Ha Hi s l t H. induction H as [s|s e x l t He Hc (q & IH)]; [exists 0%Q; constructor|].
  destruct (wg_metrics _ W FWD e x (proj2 He)) as (ms & Em). destruct (metric_finite g e i Hf Ha Hi ms Em) as (m & Hm).
  exists (m + q)%Q. constructor; auto. unfold metric_of. now rewrite Em.
Qed.
Lemma found_for_of a b q herr y qp : (y <= (1 + a) * qp + b)%Q -> (qp <= (1 + a) * q + 3 * herr + b)%Q ->
  (a == Qpower (2 # 1) (- (30)))%Q -> (b == Qpower (2 # 1) (- (1000)))%Q -> (0 <= q)%Q -> (0 <= herr)%Q ->
  (y <= (1 + Qpower (2 # 1) (- (28))) * q + 4 * herr + Qpower (2 # 1) (- (998)))%Q.
Proof.
  intros Hy Hp Ea Eb Hq Hh.
  assert (B : (3 * b <= Qpower (2 # 1) (- (998)))%Q) by (rewrite Eb; vm_compute; discriminate).
  assert (B0 : (0 <= b)%Q) by (rewrite Eb; vm_compute; discriminate).
  set (w := Qpower (2 # 1) (- (998))) in *.
  change (Qpower (2 # 1) (- (30))) with (1 # 1073741824)%Q in Ea. change (Qpower (2 # 1) (- (28))) with (1 # 268435456)%Q.
  assert (P : ((1 + a) * qp <= (1 + a) * ((1 + a) * q + 3 * herr + b))%Q).
  { apply Qmult_le_l; [rewrite Ea; reflexivity|exact Hp]. }
  rewrite Ea in *. clearbody w. clear Ea Eb Hp. lra.
Qed.

(** what a query for one metric answers *)
Lemma runit_query hav c ch1 ch2 es ns g0 g fuel q sub i r :
  1 <= ch1 -> 1 <= ch2 -> build hav c ch1 ch2 es ns = Ok g0 -> remeasured g0 g -> aligned_metrics g -> ordinary64 g ->
  xq_src q < node_count g -> xq_dst q < node_count g ->
  length sub = metric_dim g -> i < metric_dim g -> only i sub -> rasked ieee fuel g q (indicator sub) r ->
  match r with
  | None => ~ exists l, connects g (xq_src q) l (xq_dst q) /\ looked_at g (xq_rc q) l
  | Some p => exists cs y, p_costs p = Some cs /\ nth_error cs i = Some (Fin y) /\ (0 <= y)%Q /\
      connects g (xq_src q) (p_edges p) (xq_dst q) /\ rsums ieee g i (p_edges p) (Fin y) /\
      forall l x, connects g (xq_src q) l (xq_dst q) -> sums g i l x -> manageable (metric_dim g) l -> looked_at g (xq_rc q) l ->
        (y <= found_for (edge_count g FWD) fuel x)%Q
  end.
Proof.
  intros H1 H2 E Hg Hal Ho Hs Ht Hl Hi Hon Hask.
  pose proof (built_wf _ _ _ _ _ _ _ _ H1 H2 E Hg) as W. pose proof (ordinary_nonneg _ Ho) as Hnn. pose proof (ordinary_finite _ Ho) as Hf.
  pose proof (unit_fits _ _ _ Ho Hal Hi Hl Hon) as Hfit.
  assert (Hcost := fun p (K : r = Some p) => rasked_costed ieee g fuel q (indicator sub) p eq_refl eq_refl W Hal Hs Ht (eq_ind r (fun r => rasked ieee fuel g q (indicator sub) r) Hask _ K)).
  assert (Li : length (indicator sub) = metric_dim g) by (unfold indicator; now rewrite map_length).
  destruct Hask as (st & st' & Hh & Hr & Ex). unfold rxbest in Ex. apply bind_ok in Ex. destruct Ex as ([st1 o] & Ec & Ex). cbn [fst snd] in Ex.
  destruct o as [p0|].
  - apply bind_ok in Ex. destruct Ex as (p1 & Ep & Ex). injection Ex as <- <-.
    destruct (Hcost p1 eq_refl) as ((_ & _ & _ & _ & Hc & cs & Ecs & Hlen & Hsum) & Hn).
    assert (Ee : p_edges p1 = p_edges p0).
    { unfold rcalc_costs in Ep. destruct (p_costs p0); [now injection Ep as <-|]. apply bind_ok in Ep. destruct Ep as (? & _ & Ep). now injection Ep as <-. }
    destruct (nth_error cs i) as [x|] eqn:Ecx; [|apply nth_error_None in Ecx; lia].
    pose proof (Hsum i x Ecx) as Hx. destruct (rsums_billionth _ _ _ _ Ho Hx) as (y & qy & -> & Hy0 & Hqy0 & Hqy & _ & Hoff); [destruct Ho; lia|].
    exists cs, y. repeat (split; [now auto|]). intros l x Hcl Hxl Hman Hlook.
    destruct (C63_cheapest hav c ch1 ch2 es ns g0 g fuel st (with_alphas (xq_rc q) (indicator sub)) (xq_src q) (xq_dst q) st1 p0 H1 H2 E Hg Hnn Hh Hr Hs Ht Hfit Ec) as (qp & Hqp & Hmin).
    { unfold manageable. cbn [with_alphas rc_alphas]. rewrite Li, <- Ee. destruct Ho. lia. }
    cbn [with_alphas rc_alphas rc_algo] in *. rewrite Li in Hmin. rewrite <- Ee in Hqp.
    destruct (costs_sums g sub i Hf Hal Hi Hl Hon _ _ Hqp) as (q1 & Hq1 & Eq1). pose proof (sums_same _ _ _ _ Hqy _ Hq1) as <-.
    destruct (sums_costs g sub i Hf Hal Hi Hl Hon _ _ Hxl) as (x' & Hx' & Ex').
    specialize (Hmin l x' Hcl Hx' Hman Hlook). rewrite Ex', <- Eq1 in Hmin.
    eapply found_for_of; [exact Hoff|exact Hmin|reflexivity|reflexivity| |apply heap_error64_nonneg].
    rewrite <- Ex'. apply (costs_nonneg g (indicator sub) l); auto using indicator_nonneg.
  - injection Ex as <- <-. intros (l & Hcl & Hlook).
    destruct (C63_found_iff hav c ch1 ch2 es ns g0 g fuel st (with_alphas (xq_rc q) (indicator sub)) (xq_src q) (xq_dst q) st1 None H1 H2 E Hg Hnn Hh Hr Hs Ht Hfit (indicator_nonneg sub) Ec) as [F1 F2].
    cbn [with_alphas rc_alphas rc_algo] in *.
    destruct (road_sums g i W Hf Hal Hi _ _ _ Hcl) as (x & Hx). destruct (sums_costs g sub i Hf Hal Hi Hl Hon _ _ Hx) as (x' & Hx' & _).
    destruct Hlook as [A|[A U]]; [apply (proj1 (F1 A) eq_refl)|apply (proj1 (F2 A) eq_refl)]; exists l, x'; auto.
Qed.

(** The tolerance of a metric is infinite if it isn't considered or nothing can
    be found.  Otherwise it is scaled from the calculated cost of a road which
    is nearly as cheap as any. *)
Theorem C68_tolerances hav c ch1 ch2 es ns g0 g fuel rc s t st st' tol found :
  1 <= ch1 -> 1 <= ch2 -> build hav c ch1 ch2 es ns = Ok g0 -> remeasured g0 g -> aligned_metrics g -> ordinary64 g ->
  rhistory_h st -> roomy st g -> s < node_count g -> t < node_count g ->
  length (rc_alphas rc) = metric_dim g ->
  rexplore_initial_paths ieee fuel g (xquery_with g rc s t) st = Ok (st', tol, found) ->
  length tol = metric_dim g /\
  forall i, i < metric_dim g ->
    (~ considers rc i -> nth_error tol i = Some PInf) /\
    ((~ exists l, connects g s l t) -> nth_error tol i = Some PInf) /\
    (considers rc i -> (exists l, connects g s l t /\ looked_at g rc l) ->
       exists sc l y, nth_error (rc_scales rc) i = Some sc /\ connects g s l t /\ rsums ieee g i l (Fin y) /\ (0 <= y)%Q /\
         (forall l' x, connects g s l' t -> sums g i l' x -> manageable (metric_dim g) l' -> looked_at g rc l' ->
            (y <= found_for (edge_count g FWD) fuel x)%Q) /\
         nth_error tol i = Some (if feqb sc PInf then PInf else ieee (fmul (Fin y) sc))).
Proof.
  intros H1 H2 E Hg Hal Ho Hh Hr Hs Ht Hlen Ei.
  set (q := xquery_with g rc s t) in *.
  assert (Himc : length (xq_imc q) = xq_dim q) by (unfold q; cbn; rewrite map_length; exact Hlen).
  destruct (init_alphas (xq_dim q) (xq_imc q)) as [ias| | |] eqn:Eia;
    try (unfold rexplore_initial_paths in Ei; rewrite Eia in Ei; discriminate).
  pose proof (rinitial_inv ieee fuel g q st _ ias Hh Hr eq_refl Eia Ei) as [_ Hl _ _ Htol Hnone]. cbn [fst snd] in *.
  split; [exact Hl|]. intros i Hi. change (metric_dim g) with (xq_dim q) in Hi.
  destruct (Htol i Hi) as (z & Ez & Hz).
  assert (Hasked : forall al r, In (Some i, al) ias -> rasked ieee fuel g q al r ->
            considers rc i /\
            match r with
            | None => ~ exists l, connects g s l t /\ looked_at g rc l
            | Some p => exists cs y, p_costs p = Some cs /\ nth_error cs i = Some (Fin y) /\ (0 <= y)%Q /\
                connects g s (p_edges p) t /\ rsums ieee g i (p_edges p) (Fin y) /\
                forall l x, connects g s l t -> sums g i l x -> manageable (metric_dim g) l -> looked_at g rc l ->
                  (y <= found_for (edge_count g FWD) fuel x)%Q
            end).
  { intros al r Hin Hask. destruct (tagged_only _ _ _ _ _ Himc Eia Hin) as (sub & -> & Hsl & Hon & _ & Hc).
    split; [now apply imc_considers|].
    exact (runit_query hav c ch1 ch2 es ns g0 g fuel q sub i r H1 H2 E Hg Hal Ho Hs Ht Hsl Hi Hon Hask). }
  split; [|split].
  - intros Hn. destruct Hz as [[-> _]|(al & r & Hin & Hask & Hrec)]; auto. now destruct (Hasked al r Hin Hask).
  - intros Hn. destruct Hz as [[-> _]|(al & r & Hin & Hask & Hrec)]; auto. destruct (Hasked al r Hin Hask) as [_ Hm].
    destruct r as [p|]; [|cbn in Hrec; congruence]. exfalso. apply Hn. destruct Hm as (cs & y & _ & _ & _ & Hc & _). eauto.
  - intros Hc Hl'. destruct Hz as [[-> Hno]|(al & r & Hin & Hask & Hrec)].
    + exfalso. eapply Hno. apply (unit_asked _ _ _ _ Himc Eia). now apply imc_considers.
    + destruct (Hasked al r Hin Hask) as [_ Hm]. destruct r as [p|]; [|contradiction].
      destruct Hrec as (sc & Hsc & Hrec). destruct Hm as (cs & y & Ecs & Ey & Hy & Hcp & Hsp & Hmin). exists sc, (p_edges p), y.
      repeat (split; [now auto|]). rewrite Ez. destruct (feqb sc PInf); [congruence|].
      destruct Hrec as (cs' & co & Ecs' & Eco & ->). assert (cs' = cs) by congruence. subst cs'. assert (co = Fin y) by congruence. now subst co.
Qed.
Print Assumptions C68_tolerances.

(** What is calculated for a road is off by a billionth. *)
Theorem C68_costs g s t p : ordinary64 g -> costed_road ieee g s t p -> length (p_edges p) + 2 <= 2 * node_count g ->
  exists cs, p_costs p = Some cs /\ length cs = metric_dim g /\
    forall i x, nth_error cs i = Some x -> exists y q, x = Fin y /\ sums g i (p_edges p) q /\ billionth_off q y.
Proof.
  intros Ho (_ & _ & _ & _ & _ & cs & Ec & L & H) Hn. exists cs. split; auto. split; auto. intros i x Hx.
  destruct (rsums_billionth _ _ _ _ Ho (H i x Hx)) as (y & q & -> & _ & _ & Hq & Hb); [|eauto]. destruct Ho as [Ho _]. lia.
Qed.
Print Assumptions C68_costs.

Lemma scaled_numbers a yz r b k y F : (0 <= y)%Q -> (0 <= k)%Q -> (y <= F)%Q -> (k * F <= b)%Q -> (b <= inject_Z (2 ^ 1023))%Q ->
  (r <= (1 + u64) * (y * k) + eta64)%Q -> (yz < r + accuracy64)%Q -> ((1 - Qpower (2 # 1) (- (30))) * a <= yz + Qpower (2 # 1) (- (1000)))%Q ->
  (0 <= a)%Q -> (r <= top64)%Q /\ (a < (1 + Qpower (2 # 1) (- (28))) * b + 2 * accuracy64)%Q.
Proof.
  intros Hy Hk HF Hb Hbt Hr Hz Ha Ha0.
  assert (P : (y * k <= b)%Q) by (apply Qle_trans with (F * k)%Q; [apply Qmult_le_compat_r; auto|lra]).
  assert (Hu : (0 < 1 + u64)%Q) by (vm_compute; reflexivity).
  assert (P1 : ((1 + u64) * (y * k) <= (1 + u64) * b)%Q) by (apply Qmult_le_l; auto).
  assert (P0 : (0 <= y * k)%Q) by (apply Qmult_le_0_compat; auto). assert (Pb : (0 <= b)%Q) by lra. split.
  - apply Qle_trans with ((1 + u64) * inject_Z (2 ^ 1023) + eta64)%Q; [|vm_compute; discriminate].
    assert ((1 + u64) * b <= (1 + u64) * inject_Z (2 ^ 1023))%Q by (apply Qmult_le_l; auto).
    set (M := inject_Z (2 ^ 1023)) in *. lra.
  - assert (S1 : (eta64 + Qpower (2 # 1) (- (1000)) <= (1 # 1000) * accuracy64)%Q) by (vm_compute; discriminate).
    assert (S2 : (u64 <= 1 # 1125899906842624)%Q) by (vm_compute; discriminate).
    assert (P2 : ((1 + u64) * b <= (1 + (1 # 1125899906842624)) * b)%Q) by (apply Qmult_le_compat_r; lra).
    assert (S3 : (0 < accuracy64)%Q) by (vm_compute; reflexivity).
    set (tiny := Qpower (2 # 1) (- (1000))) in *. set (A := accuracy64) in *. set (eta := eta64) in *.
    assert (T : (yz < (1 + (1 # 1125899906842624)) * b + eta + A)%Q) by (set (v := ((1 + u64) * b)%Q) in *; set (w := ((1 + u64) * (y * k))%Q) in *; lra).
    change (Qpower (2 # 1) (- (30))) with (1 # 1073741824)%Q in *. change (Qpower (2 # 1) (- (28))) with (1 # 268435456)%Q.
    clearbody tiny A eta. clear Hr Hz P P1 P2 P0 Hbt Hb HF. lra.
Qed.

Section Scaled.
  Variable T : Type.
  Variable tri_new : nat -> T.
  Variable tri_add : T -> list f64 -> option (T * nat).
  Variable tri_cells : T -> list (nat * list nat).
  Variable solve : list (list f64) -> list f64 -> option (list f64).

  (** No returned path costs much more than scale times what any road costs in
      any considered metric. *)
  Theorem C68_scaled hav c ch1 ch2 es ns fuel rounds g0 g rc s t st st' ps :
    fresh_ids T tri_new tri_add ->
    1 <= ch1 -> 1 <= ch2 -> build hav c ch1 ch2 es ns = Ok g0 -> remeasured g0 g -> aligned_metrics g -> ordinary64 g ->
    rhistory_h st -> roomy st g -> s < node_count g -> t < node_count g ->
    length (rc_alphas rc) = metric_dim g ->
    rfully_explorate ieee fuel T tri_new tri_add tri_cells solve rounds g rc s t st = Ok (st', ps) ->
    forall p i k, In p ps -> i < metric_dim g -> considers rc i -> nth_error (rc_scales rc) i = Some (Fin k) -> (0 <= k)%Q ->
      exists a, sums g i (p_edges p) a /\
        forall l x, connects g s l t -> sums g i l x -> manageable (metric_dim g) l -> looked_at g rc l ->
          (k * found_for (edge_count g FWD) fuel x <= inject_Z (2 ^ 1023))%Q ->
          (a < (1 + Qpower (2 # 1) (- (28))) * (k * found_for (edge_count g FWD) fuel x) + 2 * accuracy64)%Q.
  Proof.
    intros Hfr H1 H2 E Hg Hal Ho Hh Hr Hs Ht Hlen Er p i k Hp Hi Hc Hk Hk0.
    destruct (rrun_spec _ _ _ _ _ _ _ _ _ _ _ ieee _ _ _ _ _ _ _ _ _ _ eq_refl eq_refl Hfr H1 H2 E Hg Hal Hh Hr Hs Ht Er) as (st1 & tol & new & A & _ & B).
    destruct (B p Hp) as ((Hroad & Hn) & cs & Ecs & Htol). pose proof Hroad as (_ & _ & _ & _ & Hcon & cs' & Ecs' & Hcl & Hsum).
    assert (cs' = cs) by congruence. subst cs'.
    destruct (nth_error cs i) as [z|] eqn:Ez; [|apply nth_error_None in Ez; lia].
    destruct (rsums_billionth _ _ _ _ Ho (Hsum i z Ez)) as (yz & a & -> & Hy0 & Ha0 & Ha & Hoff); [destruct Ho; lia|].
    exists a. split; auto. intros l x Hl Hx Hman Hlook Hbig.
    destruct (C68_tolerances _ _ _ _ _ _ _ _ _ _ _ _ _ _ _ _ H1 H2 E Hg Hal Ho Hh Hr Hs Ht Hlen A) as [_ G].
    destruct (G i Hi) as (_ & _ & G3). destruct (G3 Hc) as (sc & l0 & y & Hsc & _ & _ & Hy & Hmin & Hti); [eauto|].
    assert (sc = Fin k) by congruence. subst sc. cbn [feqb fcmp fmul] in Hti.
    specialize (Hmin l x Hl Hx Hman Hlook).
    pose proof (cmp_within64 _ _ (rapprox_le_nth _ _ _ _ _ _ Htol Ez Hti)) as Hw.
    assert (P0 : (0 <= y * k)%Q) by (apply Qmult_le_0_compat; auto).
    pose proof (r_high _ _ _ rounding64 _ P0) as Hr1. pose proof (rnd_nonneg u64 eta64 rnd64 rounding64 _ P0) as Hr0.
    destruct (scaled_numbers 0 0 (rnd64 (y * k)) _ k y _ Hy Hk0 Hmin (Qle_refl _) Hbig Hr1) as [Htop _].
    { assert (0 < accuracy64)%Q by (vm_compute; reflexivity). set (r := rnd64 (y * k)) in *. lra. }
    { vm_compute. discriminate. }
    { lra. }
    unfold ieee, ofin in Hw. rewrite (proj2 (Qle_bool_iff _ _) Htop) in Hw.
    rewrite (proj2 (Qle_bool_iff (- top64) _)) in Hw by (pose proof top64_nonneg; set (r := rnd64 (y * k)) in *; lra).
    cbn [within64] in Hw.
    exact (proj2 (scaled_numbers a yz (rnd64 (y * k)) _ k y _ Hy Hk0 Hmin (Qle_refl _) Hbig Hr1 Hw (proj1 Hoff) Ha0)).
  Qed.
End Scaled.
Print Assumptions C68_scaled.

(** The three parallel roads of C27, a tenth as long; in `f64`. *)
Definition xp64_graph : graph := Eval vm_compute in
  mkGraph (g_cfg xp_graph) (node_ids xp_graph) (node_coords xp_graph) (node_levels xp_graph)
    (fwd_dsts xp_graph) (fwd_offsets xp_graph) (fwd_to_fwd xp_graph) (bwd_dsts xp_graph) (bwd_offsets xp_graph) (bwd_to_fwd xp_graph)
    (map (map (fun x => ieee (fmul x (Fin (1 # 10))))) (metrics xp_graph)) None (edge_ids xp_graph) (edge_ids_map xp_graph)
    (sc_offsets xp_graph) (sc_edges_arr xp_graph).
Lemma xp64_remeasured : remeasured xp_graph xp64_graph.
Proof.
  exists (map (map (fun x => ieee (fmul x (Fin (1 # 10))))) (metrics xp_graph)), None. split; [reflexivity|].
  do 3 eexists. vm_compute. reflexivity.
Qed.
Lemma xp64_aligned : aligned_metrics xp64_graph.
Proof. intros e ms He. do 5 (destruct e as [|e]; [injection He as <-; reflexivity|]). destruct e; discriminate. Qed.
Lemma xp64_ordinary : ordinary64 xp64_graph.
Proof.
  split; [vm_compute; discriminate|]. intros e ms x He Hx.
  do 5 (destruct e as [|e]; [injection He as <-; repeat (destruct Hx as [<-|Hx]; [eexists; split; [reflexivity|]; split; vm_compute; discriminate|]); destruct Hx|]).
  destruct e; discriminate.
Qed.

(** six times 0.2 is more than 1.2 *)
Example C68_tolerances_case : exists st' tol found a b,
  rexplore_initial_paths ieee 20 xp64_graph (xquery_with xp64_graph (xp_rc (Fin 5) (Fin 6)) 0 2) dijkstra_new = Ok (st', tol, found) /\
  tol = [Fin a; Fin b] /\ (a == 1)%Q /\ (b == 1351079888211149 # 1125899906842624)%Q /\ (rnd64 (6 # 5) < b)%Q /\ map p_edges found = [[0; 3]; [1; 3]; [2; 3]] /\
  roomy dijkstra_new xp64_graph /\ rhistory_h dijkstra_new /\ length (rc_alphas (xp_rc (Fin 5) (Fin 6))) = metric_dim xp64_graph /\
  considers (xp_rc (Fin 5) (Fin 6)) 0 /\ (exists l, connects xp64_graph 0 l 2 /\ looked_at xp64_graph (xp_rc (Fin 5) (Fin 6)) l).
Proof.
  do 5 eexists. split; [vm_compute; reflexivity|]. split; [reflexivity|]. split; [reflexivity|]. split; [reflexivity|].
  split; [vm_compute; reflexivity|]. split; [reflexivity|].
  split; [intros H; discriminate H|]. split; [constructor|]. split; [reflexivity|]. split; [exists (Fin 1); split; reflexivity|].
  exists [0; 3]. split; [|left; reflexivity]. econstructor; [vm_compute; split; reflexivity|]. econstructor; [vm_compute; split; reflexivity|]. constructor.
Qed.

Example C68_run_case : exists st' p x y,
  rfully_explorate ieee 20 nat xp_new xp_add xp_cells xp_solve 5 xp64_graph (xp_rc (Fin 5) (Fin 5)) 0 2 dijkstra_new = Ok (st', [p; p]) /\
  build ex_hav xp_cfg 1 1 xp_es sink_ns = Ok xp_graph /\ remeasured xp_graph xp64_graph /\ aligned_metrics xp64_graph /\ ordinary64 xp64_graph /\
  fresh_ids nat xp_new xp_add /\ p_edges p = [2; 3] /\ p_costs p = Some [Fin x; Fin y] /\ (x == 1 # 2)%Q /\ (y == 1 # 2)%Q.
Proof.
  do 4 eexists. split; [vm_compute; reflexivity|]. split; [exact xp_build|]. split; [exact xp64_remeasured|]. split; [exact xp64_aligned|].
  split; [exact xp64_ordinary|]. split; [exact xp_fresh|]. split; [reflexivity|]. split; [reflexivity|]. split; reflexivity.
Qed.
(** five times the 0.2 of the first road *)
Example C68_scaled_case : exists x, sums xp64_graph 0 [0; 3] x /\ connects xp64_graph 0 [0; 3] 2 /\ manageable (metric_dim xp64_graph) [0; 3] /\
  (5 * found_for (edge_count xp64_graph FWD) 20 x <= inject_Z (2 ^ 1023))%Q /\
  ((1 + Qpower (2 # 1) (- (28))) * (5 * found_for (edge_count xp64_graph FWD) 20 x) + 2 * accuracy64 < 101 # 100)%Q.
Proof.
  eexists. split; [econstructor; [reflexivity|]; econstructor; [reflexivity|]; constructor|].
  split; [econstructor; [vm_compute; split; reflexivity|]; econstructor; [vm_compute; split; reflexivity|]; constructor|].
  split; [vm_compute; discriminate|]. split; [vm_compute; discriminate|vm_compute; reflexivity].
Qed.

(** *** One query: its answer is a road, whatever the arithmetic, the metrics
    and the alphas are. *)
Theorem C68_road hav c ch1 ch2 es ns ar fuel g0 g rc s t st st' p :
  ar PInf = PInf -> ar NaN = NaN ->
  1 <= ch1 -> 1 <= ch2 -> build hav c ch1 ch2 es ns = Ok g0 -> remeasured g0 g ->
  rhistory_h st -> roomy st g -> s < node_count g -> t < node_count g ->
  rcompute_best_path_h ar fuel st g rc s t = Ok (st', Some p) ->
  p_src_idx p = s /\ p_dst_idx p = t /\ node_id g s = Ok (p_src_id p) /\ node_id g t = Ok (p_dst_id p) /\ p_costs p = None /\
  connects g s (p_edges p) t /\ length (p_edges p) + 2 <= 2 * node_count g.
Proof.
  intros A1 A2 H1 H2 E Hg Hh Hr Hs Ht Ec.
  exact (any_path_h ar g fuel st rc s t st' p A1 A2 (built_wf _ _ _ _ _ _ _ _ H1 H2 E Hg) Hh Hr Hs Ht Ec).
Qed.
Print Assumptions C68_road.
(** an arithmetic that knows 0 and 1 only *)
Definition coarse (x : f64) : f64 :=
  match x with Fin q => if Qle_bool q (1 # 2) then Fin 0 else Fin 1 | _ => x end.
Example C68_road_case : exists st' p,
  rcompute_best_path_h coarse 20 dijkstra_new xp64_graph (xp_rc PInf PInf) 0 2 = Ok (st', Some p) /\ p_edges p = [0; 3] /\
  coarse PInf = PInf /\ coarse NaN = NaN.
Proof. do 2 eexists. split; [vm_compute; reflexivity|]. repeat split. Qed.
