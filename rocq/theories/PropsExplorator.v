(** C27 and C28: the explorator *)
From Coq Require Import String List Bool Arith NArith ZArith QArith Qabs Lia Lqa.
From Verif Require Import Base F64 ModelApprox ModelUnits ModelConfig ModelGraph ModelBuild ModelDijkstra ModelExplorator
  Lib Spec SpecRouting SpecPaths SpecExplorator ProofApprox PropsApprox ProofRouting PropsRouting ProofPaths PropsPaths ProofExplorator
  Examples ExamplesRouting.
Import ListNotations.
Open Scope string_scope.
Open Scope list_scope.
Open Scope nat_scope.

(** *** C27: initial queries *)

(** exactly one query per non-empty set of considered metrics; those for one
    metric know its index *)
Theorem C27_queries dim imc l : length imc = dim -> init_alphas dim imc = Ok l ->
  NoDup (map snd l) /\
  (forall v, In v (map snd l) <-> exists sub, chosen_from imc sub /\ v = indicator sub) /\
  (forall o sub, In (o, indicator sub) l -> forall i, o = Some i <-> only i sub).
Proof. exact (init_alphas_spec dim imc l). Qed.
Print Assumptions C27_queries.

(** they exist for up to 31 metrics and not beyond *)
Theorem C27_queries_exist dim imc : (exists l, init_alphas dim imc = Ok l) <-> dim < 32.
Proof.
  unfold init_alphas. destruct (Nat.leb_spec 32 dim); split; try lia; try (intros (l & E); discriminate).
  intros _. eexists. reflexivity.
Qed.
Print Assumptions C27_queries_exist.

Example C27_queries_case :
  init_alphas 3 [true; false; true] =
    Ok [(Some 0, [Fin 1; Fin 0; Fin 0]); (Some 2, [Fin 0; Fin 0; Fin 1]); (None, [Fin 1; Fin 0; Fin 1])].
Proof. vm_compute. reflexivity. Qed.

Lemma imc_considers rc i : nth_error (map (fun a => fgtb a f0) (rc_alphas rc)) i = Some true <-> considers rc i.
Proof.
  rewrite nth_error_map. unfold considers. destruct (nth_error (rc_alphas rc) i) as [a|]; cbn [option_map].
  - split; [intros E; exists a; split; congruence|intros (b & E & Hb); congruence].
  - split; [discriminate|intros (b & E & _); discriminate].
Qed.

Definition unit_flags (dim i : nat) : list bool := map (fun j => j =? i) (seq 0 dim).
Lemma unit_flags_nth dim i j : nth_error (unit_flags dim i) j = if j <? dim then Some (j =? i) else None.
Proof.
  unfold unit_flags. rewrite nth_error_map. destruct (Nat.ltb_spec j dim) as [H|H].
  - rewrite (nth_error_nth' (seq 0 dim) 0) by now rewrite seq_length. now rewrite seq_nth.
  - rewrite (proj2 (nth_error_None _ _)) by now rewrite seq_length. reflexivity.
Qed.
Lemma unit_flags_only dim i : only i (unit_flags dim i).
Proof.
  intros j. rewrite unit_flags_nth. unfold unit_flags. rewrite map_length, seq_length.
  destruct (Nat.ltb_spec j dim); [|split; [discriminate|lia]]. destruct (Nat.eqb_spec j i); split; intros; try congruence; try lia.
Qed.

Lemma unit_asked dim imc l i : length imc = dim -> init_alphas dim imc = Ok l -> nth_error imc i = Some true ->
  In (Some i, indicator (unit_flags dim i)) l.
Proof.
  intros Hl E Hi. destruct (init_alphas_spec dim imc l Hl E) as (_ & A & B).
  assert (Hid : i < dim) by (rewrite <- Hl; apply nth_error_Some; congruence).
  assert (Hin : In (indicator (unit_flags dim i)) (map snd l)).
  { apply A. exists (unit_flags dim i). split; auto. split; [unfold unit_flags; now rewrite map_length, seq_length|]. split.
    - intros j Hj. apply unit_flags_only in Hj. destruct Hj as [-> _]. auto.
    - apply nth_error_In with (n := i). apply unit_flags_only. split; auto. unfold unit_flags. now rewrite map_length, seq_length. }
  apply in_map_iff in Hin. destruct Hin as ([o v] & Ev & Hin). cbn [snd] in Ev. subst v.
  assert (o = Some i) by (apply (B o _ Hin), unit_flags_only). now subst o.
Qed.

Lemma tagged_only dim imc l i al : length imc = dim -> init_alphas dim imc = Ok l -> In (Some i, al) l ->
  exists sub, al = indicator sub /\ length sub = dim /\ only i sub /\ i < dim /\ nth_error imc i = Some true.
Proof.
  intros Hl E Hin. destruct (init_alphas_spec dim imc l Hl E) as (_ & A & B).
  assert (Ha : In al (map snd l)) by (apply in_map_iff; exists (Some i, al); auto).
  apply A in Ha. destruct Ha as (sub & (Hs & Hsub & Ht) & ->). assert (Ho : only i sub) by (apply (B _ _ Hin); auto).
  exists sub. split; auto. split; [lia|]. split; auto.
  apply In_nth_error in Ht. destruct Ht as (j & Hj). pose proof (proj1 (Ho j) Hj) as [-> Hlt]. split; [lia|auto].
Qed.

(** the tolerance of a considered metric is its least cost times its scale
    (infinite if the scale is), and infinite for all others *)
Theorem C27_tolerances hav c ch1 ch2 es ns g pick fuel rc s t st st' tol found :
  1 <= ch1 -> 1 <= ch2 -> build hav c ch1 ch2 es ns = Ok g -> nonneg_metrics g -> aligned_metrics g -> finite_metrics g ->
  history st -> roomy st g -> s < node_count g -> t < node_count g -> picks_min 0 pick -> finds_cheapest g rc ->
  length (rc_alphas rc) = metric_dim g ->
  explore_initial_paths pick fuel g (xquery_with g rc s t) st = Ok (st', tol, found) ->
  length tol = metric_dim g /\
  forall i, i < metric_dim g ->
    (~ considers rc i -> nth_error tol i = Some PInf) /\
    ((~ exists l, connects g s l t) -> nth_error tol i = Some PInf) /\
    (considers rc i -> (exists l, connects g s l t) ->
       exists sc m, nth_error (rc_scales rc) i = Some sc /\ least_cost g i s t m /\
         nth_error tol i = Some (if feqb sc PInf then PInf else fmul (Fin m) sc)).
Proof.
  intros H1 H2 E Hnn Hal Hf Hh Hr Hs Ht Hpk Halg Hlen Ei.
  set (q := xquery_with g rc s t) in *.
  assert (Himc : length (xq_imc q) = xq_dim q) by (unfold q; cbn; rewrite map_length; exact Hlen).
  destruct (init_alphas (xq_dim q) (xq_imc q)) as [ias| | |] eqn:Eia;
    try (unfold explore_initial_paths in Ei; rewrite Eia in Ei; discriminate).
  pose proof (initial_inv pick fuel g q st _ ias Hh Hr eq_refl Eia Ei) as [_ Hl _ _ Htol Hnone]. cbn [fst snd] in *.
  split; [exact Hl|]. intros i Hi. change (metric_dim g) with (xq_dim q) in Hi.
  destruct (Htol i Hi) as (y & Ey & Hy).
  assert (Hasked : forall al r, In (Some i, al) ias -> asked pick fuel g q al r ->
            considers rc i /\
            match r with
            | None => ~ exists l, connects g s l t
            | Some p => exists cs m, p_costs p = Some cs /\ nth_error cs i = Some (Fin m) /\ least_cost g i s t m
            end).
  { intros al r Hin Hask. destruct (tagged_only _ _ _ _ _ Himc Eia Hin) as (sub & -> & Hsl & Ho & _ & Hc).
    split; [now apply imc_considers|].
    exact (unit_query hav c ch1 ch2 es ns g pick fuel q sub i r H1 H2 E Hnn Hal Hf Hs Ht Hpk Halg Hsl Hi Ho Hask). }
  split; [|split].
  - intros Hn. destruct Hy as [[-> _]|(al & r & Hin & Hask & Hrec)]; auto. now destruct (Hasked al r Hin Hask).
  - intros Hn. destruct Hy as [[-> _]|(al & r & Hin & Hask & Hrec)]; auto. destruct (Hasked al r Hin Hask) as [_ Hm].
    destruct r as [p|]; [|cbn in Hrec; congruence]. exfalso. apply Hn.
    destruct Hm as (cs & m & _ & _ & (l & q0 & Hc & _) & _). eauto.
  - intros Hc Hl'. destruct Hy as [[-> Hno]|(al & r & Hin & Hask & Hrec)].
    + exfalso. eapply Hno. apply (unit_asked _ _ _ _ Himc Eia). now apply imc_considers.
    + destruct (Hasked al r Hin Hask) as [_ Hm]. destruct r as [p|]; [|contradiction].
      destruct Hrec as (sc & Hsc & Hrec). destruct Hm as (cs & m & Ecs & Em & Hleast). exists sc, m.
      split; auto. split; auto. rewrite Ey. destruct (feqb sc PInf); [congruence|].
      destruct Hrec as (cs' & co & Ecs' & Eco & ->). congruence.
Qed.
Print Assumptions C27_tolerances.

(** three parallel roads 0 -> 1 with costs (1, 10), (10, 1) and (4, 4) *)
Definition xp_cfg : cfg :=
  {| cfg_edges := {| ec_categories := [CMeta SrcId "src"; CMeta DstId "dst"; CMetric UF64 "a"; CMetric UF64 "b"];
                     ec_normalized := false; ec_units := [UF64; UF64]; ec_ids := ["a"; "b"] |};
     cfg_nodes := []; cfg_gen_nodes := []; cfg_gen_edges := [] |}.
Definition xp_edge (id : nat) (s d : Z) (a b : Q) : proto_edge :=
  {| pe_id := Some id; pe_src := s; pe_dst := d; pe_metrics := [Fin a; Fin b]; pe_sc := None |}.
Definition xp_es : list proto_edge :=
  [ xp_edge 0 0 1 1 10; xp_edge 1 0 1 10 1; xp_edge 2 0 1 4 4; xp_edge 3 1 2 1 1; xp_edge 4 2 0 1 1 ].
Definition xp_graph : graph :=
  Eval vm_compute in unok empty_graph (build ex_hav xp_cfg 1 1 xp_es sink_ns).
Lemma xp_build : build ex_hav xp_cfg 1 1 xp_es sink_ns = Ok xp_graph.
Proof. vm_compute. reflexivity. Qed.
Lemma xp_nonneg : nonneg_metrics xp_graph.
Proof. apply nonneg_of_list. vm_compute. repeat constructor; discriminate. Qed.
Lemma xp_aligned : aligned_metrics xp_graph.
Proof. intros e ms He. do 5 (destruct e as [|e]; [injection He as <-; reflexivity|]). destruct e; discriminate. Qed.
Lemma xp_finite : finite_metrics xp_graph.
Proof.
  intros e ms x He Hx. do 5 (destruct e as [|e]; [injection He as <-; repeat (destruct Hx as [<-|Hx]; [eauto|]); destruct Hx|]).
  destruct e; discriminate.
Qed.
Definition xp_rc (sa sb : f64) : routing_cfg :=
  {| rc_algo := ADijkstra; rc_alphas := [Fin 1; Fin (1 # 2)]; rc_scales := [sa; sb] |}.

Example C27_tolerances_case : exists st' tol found,
  explore_initial_paths exact_pick 20 xp_graph (xquery_with xp_graph (xp_rc (Fin 5) PInf) 0 1) dijkstra_new = Ok (st', tol, found) /\
  tol = [Fin (5 # 1); PInf] /\ length found = 3 /\ picks_min 0 exact_pick /\ roomy dijkstra_new xp_graph /\
  length (rc_alphas (xp_rc (Fin 5) PInf)) = metric_dim xp_graph.
Proof.
  do 3 eexists. split; [vm_compute; reflexivity|]. split; [reflexivity|]. split; [reflexivity|].
  split; [apply exact_picks|]. split; [intros H; discriminate H|reflexivity].
Qed.

(** considered are the metrics with positive alpha.  A finite scale of a metric
    with alpha 0 is ignored: its tolerance is infinite. *)
Theorem C27_finite_scale_refuted : exists hav c es ns g rc s t st' tol found i m k,
  build hav c 1 1 es ns = Ok g /\ nonneg_metrics g /\ aligned_metrics g /\ finite_metrics g /\
  length (rc_alphas rc) = metric_dim g /\
  explore_initial_paths exact_pick 20 g (xquery_with g rc s t) dijkstra_new = Ok (st', tol, found) /\
  least_cost g i s t m /\ nth_error (rc_scales rc) i = Some (Fin k) /\ nth_error tol i = Some PInf.
Proof.
  exists ex_hav, xp_cfg, xp_es, sink_ns, xp_graph,
    {| rc_algo := ADijkstra; rc_alphas := [Fin 1; Fin 0]; rc_scales := [Fin 2; Fin 2] |}, 0, 1.
  do 3 eexists. exists 1, 1%Q, 2%Q.
  split; [exact xp_build|]. split; [exact xp_nonneg|]. split; [exact xp_aligned|]. split; [exact xp_finite|].
  split; [reflexivity|]. split; [vm_compute; reflexivity|]. split; [|split; reflexivity].
  split.
  - exists [1], (1 + 0)%Q. split; [|split; [|reflexivity]].
    + econstructor; [vm_compute; split; reflexivity|constructor].
    + constructor; [reflexivity|constructor].
  - (* leaving node 0 costs at least 1 *)
    intros es q Hc Hs. destruct es as [|e es]; [inversion Hc|].
    assert (G : forall l q, sums xp_graph 1 l q -> (0 <= q)%Q).
    { induction 1 as [|e0 l a b Em Hl IH]; [lra|]. assert (0 <= a)%Q; [|lra].
      do 5 (destruct e0 as [|e0]; [injection Em as <-; vm_compute; discriminate|]). destruct e0; discriminate. }
    inversion Hs as [|e0 l a b Em Hl]; subst. apply G in Hl. assert (1 <= a)%Q; [|lra].
    do 5 (destruct e as [|e]; [injection Em as <-; vm_compute; discriminate|]). destruct e; discriminate.
Qed.
Print Assumptions C27_finite_scale_refuted.

(** *** C28: returned paths *)
Lemma tolerates_of x y i c z : approx_le_vec x y = true -> nth_error x i = Some (Fin c) -> nth_error y i = Some z -> tolerates z c.
Proof.
  intros H Hx Hy. destruct z as [b| | |]; cbn; auto.
  - exact (approx_le_vec_nth x y i c b H Hx Hy).
  - exfalso. pose proof (proj1 (proj2 (C26_approx_vec x y)) H i _ _ Hx Hy) as N. apply N. reflexivity.
Qed.

Section Run.
  Variable T : Type.
  Variable tri_new : nat -> T.
  Variable tri_add : T -> list f64 -> option (T * nat).
  Variable tri_cells : T -> list (nat * list nat).
  Variable solve : list (list f64) -> list f64 -> option (list f64).

  Lemma run_split pick fuel rounds g rc s t st st' ps :
    fully_explorate pick fuel T tri_new tri_add tri_cells solve rounds g rc s t st = Ok (st', ps) ->
    exists st1 tol new s1 s2,
      let q0 := xquery_with g rc s t in
      let q := {| xq_src := s; xq_dst := t; xq_rc := rc; xq_dim := metric_dim g; xq_tdim := xq_tdim q0; xq_tol := tol; xq_imc := xq_imc q0 |} in
      explore_initial_paths pick fuel g q0 st = Ok (st1, tol, new) /\
      update T tri_add q new (mkXState T (tri_new (xq_tdim q0)) [] [] [] false) = Ok s1 /\
      (if (1 <? xq_tdim q0) && (xq_tdim q0 <? length (xs_found T s1))
       then explore pick fuel T tri_add tri_cells solve g q rounds st1 s1 else Ok (st1, s1)) = Ok (st', s2) /\
      collect (xs_tolerated T s2) (xs_found T s2) = Ok ps.
  Proof.
    unfold fully_explorate. intros E. apply bind_ok in E. destruct E as ([[st1 tol] new] & E1 & E).
    apply bind_ok in E. destruct E as (s1 & E2 & E). apply bind_ok in E. destruct E as ([st2 s2] & E3 & E).
    apply bind_ok in E. destruct E as (ps' & E4 & E). injection E as <- <-. cbn [fst snd] in *.
    exists st1, tol, new, s1, s2. auto.
  Qed.

  (** asking does not depend on the tolerances *)
  Lemma asked_tol pick fuel g q q' al r : xq_src q = xq_src q' -> xq_dst q = xq_dst q' -> xq_rc q = xq_rc q' ->
    asked pick fuel g q al r -> asked pick fuel g q' al r.
  Proof. intros A B C (st & st' & Hh & Hr & E). exists st, st'. unfold xbest in *. rewrite <- A, <- B, <- C. auto. Qed.

  Lemma initial_ok pick fuel g q st st' tol found : history st -> roomy st g -> xq_tol q = repeat PInf (xq_dim q) ->
    explore_initial_paths pick fuel g q st = Ok (st', tol, found) ->
    (history st' /\ roomy st' g) /\ (forall p, In p found -> exists al, asked pick fuel g q al (Some p)) /\ ForallOrdPairs cost_apart found.
  Proof.
    intros Hh Hr Et Ei. destruct (init_alphas (xq_dim q) (xq_imc q)) as [ias| | |] eqn:Eia;
      try (unfold explore_initial_paths in Ei; rewrite Eia in Ei; discriminate).
    destruct (initial_inv pick fuel g q st _ ias Hh Hr Et Eia Ei) as [A _ B C _ _]. cbn [fst snd] in *. split; auto. split; auto.
    intros p Hp. destruct (B p Hp) as (al & _ & H). eauto.
  Qed.

  Lemma run_spec hav c ch1 ch2 es ns pick fuel rounds g rc s t st st' ps :
    fresh_ids T tri_new tri_add ->
    1 <= ch1 -> 1 <= ch2 -> build hav c ch1 ch2 es ns = Ok g -> nonneg_metrics g -> aligned_metrics g ->
    history st -> roomy st g -> s < node_count g -> t < node_count g -> valid_pick pick ->
    fully_explorate pick fuel T tri_new tri_add tri_cells solve rounds g rc s t st = Ok (st', ps) ->
    exists st1 tol new, explore_initial_paths pick fuel g (xquery_with g rc s t) st = Ok (st1, tol, new) /\
      (history st' /\ roomy st' g) /\
      forall p, In p ps -> real_path g s t p /\ exists cs, p_costs p = Some cs /\ approx_le_vec cs tol = true.
  Proof.
    intros (ids & Hnew & Hadd) H1 H2 E Hnn Hal Hh Hr Hs Ht Hv Er.
    destruct (run_split _ _ _ _ _ _ _ _ _ _ Er) as (st1 & tol & new & s1 & s2 & E1 & E2 & E3 & E4). cbv zeta in *.
    set (q0 := xquery_with g rc s t) in *.
    set (q := {| xq_src := s; xq_dst := t; xq_rc := rc; xq_dim := metric_dim g; xq_tdim := xq_tdim q0; xq_tol := tol; xq_imc := xq_imc q0 |}) in *.
    destruct (initial_ok _ _ _ q0 _ _ _ _ Hh Hr eq_refl E1) as ([Hh1 Hr1] & Hf & _).
    assert (HP : forall al p, asked pick fuel g q al (Some p) -> real_path g s t p).
    { intros al p (sta & stb & A & B & C).
      exact (xbest_real _ _ _ _ _ _ _ _ _ q _ _ _ _ H1 H2 E Hnn Hal A B Hs Ht Hv C). }
    exists st1, tol, new. split; auto.
    assert (I1 : xinv T ids q (real_path g s t) s1).
    { eapply (update_inv T tri_add ids Hadd q); [| |exact E2].
      - constructor; cbn [xs_found xs_tri xs_tolerated]; [intros ? ? []|intros ? []|constructor|intros ? []].
      - intros p Hp. destruct (Hf p Hp) as (al & Ha). apply (HP al). exact (asked_tol _ _ _ q0 q _ _ eq_refl eq_refl eq_refl Ha). }
    assert (I2 : (history st' /\ roomy st' g) /\ xinv T ids q (real_path g s t) s2).
    { destruct (_ && _).
      - exact (explore_inv T tri_add tri_cells solve ids Hadd pick fuel g q _ HP rounds _ _ _ _ Hh1 Hr1 I1 E3).
      - injection E3 as <- <-. auto. }
    destruct I2 as [Hst [J1 J2 J3 J4]]. split; auto.
    pose proof (collect_spec _ _ _ E4 J3) as F. intros p Hp. apply In_nth_error in Hp. destruct Hp as (k & Hk).
    destruct (nth_error (xs_tolerated T s2) k) as [id|] eqn:Eid.
    2:{ apply nth_error_None in Eid. pose proof (Forall2_len _ _ _ F). assert (k < length ps) by (apply nth_error_Some; congruence). lia. }
    destruct (Forall2_nth _ _ _ _ _ F Eid) as (p' & Hp' & Hlk). assert (p' = p) by congruence. subst p'.
    split; [exact (J1 id p (lookup_in _ _ _ Hlk))|].
    destruct (J4 id (nth_error_In _ _ Eid)) as (p'' & Hl'' & Ht''). assert (p'' = p) by congruence. subst p''. exact Ht''.
  Qed.

  (** Every returned path is a path of the graph that carries its costs, and
      stays within the tolerances found initially: whatever the algorithm, the
      order of the queue, the triangulation and the solver. *)
  Theorem C28_tolerated hav c ch1 ch2 es ns pick fuel rounds g rc s t st st' ps :
    fresh_ids T tri_new tri_add ->
    1 <= ch1 -> 1 <= ch2 -> build hav c ch1 ch2 es ns = Ok g -> nonneg_metrics g -> aligned_metrics g ->
    history st -> roomy st g -> s < node_count g -> t < node_count g -> valid_pick pick ->
    fully_explorate pick fuel T tri_new tri_add tri_cells solve rounds g rc s t st = Ok (st', ps) ->
    exists st1 tol new, explore_initial_paths pick fuel g (xquery_with g rc s t) st = Ok (st1, tol, new) /\
      forall p, In p ps -> real_path g s t p /\
        exists cs, p_costs p = Some cs /\ forall i a x, nth_error cs i = Some (Fin a) -> nth_error tol i = Some x -> tolerates x a.
  Proof.
    intros Hfr H1 H2 E Hnn Hal Hh Hr Hs Ht Hv Er.
    destruct (run_spec _ _ _ _ _ _ _ _ _ _ _ _ _ _ _ _ Hfr H1 H2 E Hnn Hal Hh Hr Hs Ht Hv Er) as (st1 & tol & new & A & _ & B).
    exists st1, tol, new. split; auto. intros p Hp. destruct (B p Hp) as (C & cs & D & F). split; auto. exists cs. split; auto.
    intros i a x Ha Hx. exact (tolerates_of _ _ _ _ _ F Ha Hx).
  Qed.

  (** With exact Dijkstra: no returned path costs more than scale times the
      least cost in any considered metric. *)
  Theorem C28_scaled hav c ch1 ch2 es ns pick fuel rounds g rc s t st st' ps :
    fresh_ids T tri_new tri_add ->
    1 <= ch1 -> 1 <= ch2 -> build hav c ch1 ch2 es ns = Ok g -> nonneg_metrics g -> aligned_metrics g -> finite_metrics g ->
    history st -> roomy st g -> s < node_count g -> t < node_count g -> picks_min 0 pick -> finds_cheapest g rc ->
    length (rc_alphas rc) = metric_dim g ->
    fully_explorate pick fuel T tri_new tri_add tri_cells solve rounds g rc s t st = Ok (st', ps) ->
    forall p i k, In p ps -> i < metric_dim g -> considers rc i -> nth_error (rc_scales rc) i = Some (Fin k) ->
      exists a m, sums g i (p_edges p) a /\ least_cost g i s t m /\ (a < m * k + (3 # 2000000))%Q.
  Proof.
    intros Hfr H1 H2 E Hnn Hal Hfin Hh Hr Hs Ht Hpk Halg Hlen Er p i k Hp Hi Hc Hk.
    destruct (C28_tolerated _ _ _ _ _ _ _ _ _ _ _ _ _ _ _ _ Hfr H1 H2 E Hnn Hal Hh Hr Hs Ht (proj1 Hpk) Er) as (st1 & tol & new & A & B).
    destruct (B p Hp) as ((_ & _ & Hcon & cs & Ecs & _ & Hsum) & cs' & Ecs' & Htol). assert (cs' = cs) by congruence. subst cs'.
    destruct (C27_tolerances _ _ _ _ _ _ _ _ _ _ _ _ _ _ _ _ H1 H2 E Hnn Hal Hfin Hh Hr Hs Ht Hpk Halg Hlen A) as [_ G].
    destruct (G i Hi) as (_ & _ & G3). destruct (G3 Hc) as (sc & m & Hsc & Hm & Hti); [eauto|].
    assert (sc = Fin k) by congruence. subst sc. cbn [feqb fcmp] in Hti.
    destruct (sums_exist _ _ _ _ _ _ _ i H1 H2 E Hfin Hal Hi _ _ _ Hcon) as (a & Ha).
    destruct (Hsum i a Hi Ha) as (a' & Hn & Ea). exists a, m. split; auto. split; auto.
    specialize (Htol i a' _ Hn Hti). cbn in Htol. rewrite <- Ea. exact Htol.
  Qed.

  (** *** distinct paths *)
  Definition tol_ok (tol : list f64) (p : path) : bool :=
    match p_costs p with Some cs => approx_le_vec cs tol | None => false end.

  Lemma update_collect ids q : (forall t c t' id, tri_add t c = Some (t', id) ->
      ~ In id (ids t) /\ forall k, In k (ids t') <-> k = id \/ In k (ids t)) ->
    forall new pre s s',
      (forall id, In id (xs_tolerated T s) -> In id (ids (xs_tri T s))) ->
      Forall2 (fun id p => lookup id (xs_found T s) = Some p) (xs_tolerated T s) (filter (tol_ok (xq_tol q)) pre) ->
      foldM (update_path T tri_add q) new s = Ok s' ->
      Forall2 (fun id p => lookup id (xs_found T s') = Some p) (xs_tolerated T s') (filter (tol_ok (xq_tol q)) (pre ++ new)).
  Proof.
    intros Hadd. induction new as [|p new IH]; intros pre s s' Hi HF E; cbn [foldM] in E.
    - injection E as <-. now rewrite app_nil_r.
    - apply bind_ok in E. destruct E as (s1 & E1 & E). change (p :: new) with ([p] ++ new). rewrite app_assoc.
      unfold update_path in E1. apply bind_ok in E1. destruct E1 as (cs & Ecs & E1). apply path_costs_ok in Ecs.
      apply bind_ok in E1. destruct E1 as (cc & _ & E1). apply bind_ok in E1. destruct E1 as ([tri id] & Ea & E1).
      unfold expect in Ea. destruct (tri_add (xs_tri T s) cc) as [[tri' id']|] eqn:Et; [|discriminate]. injection Ea as -> ->.
      destruct (Hadd _ _ _ _ Et) as [Hnew Hids]. injection E1 as <-.
      assert (Hok : tol_ok (xq_tol q) p = approx_le_vec cs (xq_tol q)) by (unfold tol_ok; now rewrite Ecs).
      assert (HF' : Forall2 (fun id0 p0 => lookup id0 ((id, p) :: remove_id id (xs_found T s)) = Some p0) (xs_tolerated T s)
                (filter (tol_ok (xq_tol q)) pre)).
      { revert HF. assert (Hni : ~ In id (xs_tolerated T s)) by (intros H; apply Hnew; auto). revert Hni.
        generalize (xs_tolerated T s) (filter (tol_ok (xq_tol q)) pre). induction l as [|k l IHl]; intros l' Hni HF; inversion HF; subst; constructor.
        - cbn [lookup]. destruct (Nat.eqb_spec id k) as [->|Hne]; [exfalso; apply Hni; now left|]. rewrite lookup_remove.
          destruct (Nat.eqb_spec k id); [congruence|auto].
        - apply IHl; auto. intros H. apply Hni. now right. }
      eapply IH; [| |exact E]; cbn [xs_tolerated xs_tri xs_found].
      + intros k Hk. apply Hids. destruct (approx_le_vec cs (xq_tol q)); auto. apply in_app_or in Hk. destruct Hk as [Hk|[<-|[]]]; auto.
      + rewrite filter_app. cbn [filter]. rewrite Hok. destruct (approx_le_vec cs (xq_tol q)); [|now rewrite app_nil_r].
        apply Forall2_app; auto. constructor; [|constructor]. cbn [lookup]. now rewrite Nat.eqb_refl.
  Qed.

  Lemma FOP_filter {A} (R : A -> A -> Prop) f l : ForallOrdPairs R l -> ForallOrdPairs R (filter f l).
  Proof.
    induction 1 as [|a l Ha Hl IH]; cbn [filter]; [constructor|]. destruct (f a); auto. constructor; auto.
    apply Forall_forall. intros x Hx. apply filter_In in Hx. rewrite Forall_forall in Ha. now apply Ha.
  Qed.

  Lemma Forall2_det {A B} (R : A -> B -> Prop) : (forall a b b', R a b -> R a b' -> b = b') ->
    forall l m m', Forall2 R l m -> Forall2 R l m' -> m = m'.
  Proof. intros H. induction l; intros m m' A1 A2; inversion A1; inversion A2; subst; auto. f_equal; eauto. Qed.

  (** Statement wanted: the returned paths always differ noticeably in their
      costs.  Missing: paths added by exploring facets, cf.
      C28_distinct_refuted.  Shown: it holds if no facet is explored, i.e. with
      at most one considered metric or too few initial paths. *)
  Theorem C28_distinct_partial pick fuel rounds g rc s t st st' ps st1 tol new :
    fresh_ids T tri_new tri_add -> history st -> roomy st g ->
    fully_explorate pick fuel T tri_new tri_add tri_cells solve rounds g rc s t st = Ok (st', ps) ->
    explore_initial_paths pick fuel g (xquery_with g rc s t) st = Ok (st1, tol, new) ->
    ForallOrdPairs costs_differ new /\
    (xq_tdim (xquery_with g rc s t) <= 1 \/ length new <= xq_tdim (xquery_with g rc s t) ->
     ps = filter (tol_ok tol) new /\ ForallOrdPairs costs_differ ps).
  Proof.
    intros (ids & Hnew & Hadd) Hh Hr Er Ei.
    destruct (run_split _ _ _ _ _ _ _ _ _ _ Er) as (st1' & tol' & new' & s1 & s2 & E1 & E2 & E3 & E4). cbv zeta in *.
    rewrite E1 in Ei. injection Ei as -> -> ->.
    set (q0 := xquery_with g rc s t) in *.
    set (q := {| xq_src := s; xq_dst := t; xq_rc := rc; xq_dim := metric_dim g; xq_tdim := xq_tdim q0; xq_tol := tol; xq_imc := xq_imc q0 |}) in *.
    destruct (initial_ok _ _ _ q0 _ _ _ _ Hh Hr eq_refl E1) as (_ & _ & Hap).
    assert (Hd : ForallOrdPairs costs_differ new).
    { clear - Hap. induction Hap as [|a l Ha Hl IH]; constructor; auto. eapply Forall_impl; [|exact Ha].
      intros b Hb c c' Hc Hc' Hcl. apply (proj2 (proj1 (C26_approx_vec c c'))) in Hcl. specialize (Hb c c' Hc Hc'). congruence. }
    split; auto. intros Hno.
    assert (Hlen : length (xs_found T s1) <= length new).
    { unfold update in E2. revert E2. assert (G : forall l x y, foldM (update_path T tri_add q) l x = Ok y -> length (xs_found T y) <= length (xs_found T x) + length l).
      { induction l as [|p l IH]; intros x y E; cbn [foldM] in E; [injection E as <-; simpl; lia|].
        apply bind_ok in E. destruct E as (z & Ez & E). specialize (IH _ _ E). unfold update_path in Ez.
        apply bind_ok in Ez. destruct Ez as (cs & _ & Ez). apply bind_ok in Ez. destruct Ez as (cc & _ & Ez). apply bind_ok in Ez. destruct Ez as ([tri id] & _ & Ez).
        injection Ez as <-. cbn [xs_found length] in *. unfold remove_id in IH.
        assert (Hfl : forall {A} (f : A -> bool) m, length (filter f m) <= length m) by (intros A f m; induction m as [|a m IHm]; cbn [filter length]; [lia|destruct (f a); cbn [length]; lia]).
        pose proof (Hfl _ (fun kp : nat * path => negb (fst kp =? id)) (xs_found T x)). lia. }
      intros E2. apply G in E2. exact E2. }
    assert (Hcond : (1 <? xq_tdim q0) && (xq_tdim q0 <? length (xs_found T s1)) = false).
    { apply andb_false_iff. destruct Hno; [left; apply Nat.ltb_ge; lia|right; apply Nat.ltb_ge; lia]. }
    rewrite Hcond in E3. injection E3 as <- <-.
    assert (Hps : ps = filter (tol_ok tol) new).
    { assert (I1 : xinv T ids q (fun _ => True) s1).
      { eapply (update_inv T tri_add ids Hadd q); [| |exact E2]; auto.
        constructor; cbn [xs_found xs_tri xs_tolerated]; [intros ? ? []|intros ? []|constructor|intros ? []]. }
      destruct I1 as [_ _ J3 _]. pose proof (collect_spec _ _ _ E4 J3) as F1.
      assert (F2 : Forall2 (fun id p => lookup id (xs_found T s1) = Some p) (xs_tolerated T s1) (filter (tol_ok tol) new)).
      { unfold update in E2. apply (update_collect ids q Hadd new [] _ s1) in E2; [exact E2|intros id []|constructor]. } eapply Forall2_det; [|exact F1|exact F2]. cbn. congruence. }
    split; auto. rewrite Hps. apply FOP_filter. exact Hd.
  Qed.
End Run.
Print Assumptions C28_tolerated.
Print Assumptions C28_scaled.
Print Assumptions C28_distinct_partial.

(** a triangulation of points in the plane for three corners: its facets are
    the sides of the triangle, further points are taken to lie inside or on a
    corner.  Cramer's rule for two unknowns. *)
Definition xp_new (d : nat) : nat := 0.
Definition xp_add (n : nat) (c : list f64) : option (nat * nat) := Some (S n, n).
Definition xp_cells (n : nat) : list (nat * list nat) :=
  if 3 <=? n then [(0, [0; 1]); (1, [0; 2]); (2, [1; 2])] else [].
Definition xp_solve (rows : list (list f64)) (b : list f64) : option (list f64) :=
  match rows, b with
  | [[Fin a; Fin b]; [Fin c; Fin d]], [Fin e; Fin f] =>
      if Qeq_bool (a * d - b * c) 0 then None
      else Some [Fin (Qred ((e * d - b * f) / (a * d - b * c))); Fin (Qred ((a * f - e * c) / (a * d - b * c)))]
  | _, _ => None
  end.
Lemma xp_fresh : fresh_ids nat xp_new xp_add.
Proof.
  exists (fun n => seq 0 n). split; [reflexivity|]. intros t c t' id E. injection E as <- <-. rewrite in_seq. split; [lia|].
  intros k. rewrite !in_seq. lia.
Qed.

(** only the third road is within five times the best costs in both metrics *)
Example C28_tolerated_case : exists st' p,
  fully_explorate exact_pick 20 nat xp_new xp_add xp_cells xp_solve 5 xp_graph (xp_rc (Fin 5) (Fin 5)) 0 1 dijkstra_new
    = Ok (st', [p; p]) /\ p_edges p = [2] /\ fresh_ids nat xp_new xp_add.
Proof. do 2 eexists. split; [vm_compute; reflexivity|]. split; [reflexivity|exact xp_fresh]. Qed.
(** with one considered metric *)
Example C28_distinct_case : exists st' p,
  fully_explorate exact_pick 20 nat xp_new xp_add xp_cells xp_solve 5 xp_graph
    {| rc_algo := ADijkstra; rc_alphas := [Fin 1; Fin 0]; rc_scales := [Fin 2; Fin 2] |} 0 1 dijkstra_new
    = Ok (st', [p]) /\ p_edges p = [0].
Proof. do 2 eexists. split; [vm_compute; reflexivity|reflexivity]. Qed.

(** The three roads are found initially.  Road (4, 4) lies below the facet of
    the other two, is found there again, and is returned twice. *)
Theorem C28_distinct_refuted : exists hav c es ns g rc s t st' a b p,
  build hav c 1 1 es ns = Ok g /\ nonneg_metrics g /\ aligned_metrics g /\ finite_metrics g /\ s < node_count g /\ t < node_count g /\
  length (rc_alphas rc) = metric_dim g /\ picks_min 0 exact_pick /\ fresh_ids nat xp_new xp_add /\
  fully_explorate exact_pick 20 nat xp_new xp_add xp_cells xp_solve 5 g rc s t dijkstra_new = Ok (st', [a; b; p; p]).
Proof.
  exists ex_hav, xp_cfg, xp_es, sink_ns, xp_graph, (xp_rc PInf PInf), 0, 1. do 4 eexists.
  split; [exact xp_build|]. split; [exact xp_nonneg|]. split; [exact xp_aligned|]. split; [exact xp_finite|].
  split; [vm_compute; lia|]. split; [vm_compute; lia|]. split; [reflexivity|]. split; [exact exact_picks|]. split; [exact xp_fresh|].
  vm_compute. reflexivity.
Qed.
Print Assumptions C28_distinct_refuted.
