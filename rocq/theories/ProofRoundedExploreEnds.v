(** The explorator comes to an end, whatever its arithmetic does as long as it
    respects the order *)
From Coq Require Import List Bool Arith Lia ZArith QArith.
From Verif Require Import Base F64 Lib ModelApprox ModelUnits ModelConfig ModelGraph ModelBuild ModelDijkstra ModelExplorator ModelHeap
  ModelRounded ModelRoundedHeap ModelRoundedExplorator
  Spec SpecRouting SpecPaths SpecExplorator SpecCells SpecExploreEnds SpecRounded SpecRoundedHeap AbsSearch ProofDijkstra ProofPaths ProofExplorator PropsGraph PropsRouting
  ProofCells ProofCells3 ProofExploreEnds ProofExploreEnds2 ProofRounded ProofRoundedRun ProofHeap ProofHeapSearch ProofRoundedHeap ProofOverflow
  ProofRoundedAny ProofRoundedExplorator ProofRoundedExploratorCosts ProofRoundedEnds.
Import ListNotations.
Open Scope nat_scope.

Section Ends.
  Variable ar : f64 -> f64.
  Variable fuel : nat.
  Variable T : Type.
  Variable tri_add : T -> list f64 -> option (T * nat).
  Variable tri_cells : T -> list (nat * list nat).
  Variable solve : list (list f64) -> list f64 -> option (list f64).
  Variable g : graph.
  Variable q : xquery.
  (** the states of the Dijkstra object *)
  Variable J : dijkstra -> Prop.
  Hypothesis best_ends : forall st al, J st -> rxbest ar fuel g q st al <> Diverge.
  Hypothesis best_keeps : forall st al st' r, J st -> rxbest ar fuel g q st al = Ok (st', r) -> J st'.

  Variable pool : list (list f64).
  Notation pointed := (ProofExploreEnds.pointed q).
  Hypothesis best_pool : forall st al st' p, J st -> rxbest ar fuel g q st al = Ok (st', Some p) -> pointed pool p.

  Variable pts : T -> list (list f64).
  Hypothesis pts_add : forall t c t' id, tri_add t c = Some (t', id) -> forall x, In x (pts t') <-> x = c \/ In x (pts t).
  Hypothesis pts_same : forall t c t' id, tri_add t c = Some (t', id) -> In c (pts t) ->
    forall k vs, In (k, vs) (tri_cells t') -> exists vs', In (k, vs') (tri_cells t).

  Lemma rsystem_ends cell : rcreate_linear_system ar q cell <> Diverge.
  Proof.
    destruct cell as [|v0 vs]; [discriminate|]. cbn [rcreate_linear_system].
    apply bind_ends; [apply costs_end|]. intros c0 _. apply bind_ends; [apply mapM_ends; intros p _; apply costs_end|]. intros cs _.
    apply bind_ends; [apply mapM_ends; intros ib _; apply set_ends|]. intros rows _.
    destruct (xq_dim q <? _); [discriminate|]. destruct (xq_dim q - _) as [|[|]]; discriminate.
  Qed.

  Lemma rexplore_cell_ends found x c : J (fst (fst x)) -> rexplore_cell ar fuel solve g q found x c <> Diverge.
  Proof.
    destruct x as [[st vis] new]. cbn [fst]. intros HJ. unfold rexplore_cell. destruct (existsb _ vis); [discriminate|].
    apply bind_ends; [apply cell_ends|]. intros cell _. apply bind_ends; [apply misses_ends|]. intros miss _.
    destruct miss; [discriminate|]. apply bind_ends; [apply rsystem_ends|]. intros [[rows b]|] _; [|discriminate].
    destruct (solve rows b) as [al|]; [|discriminate]. apply bind_ends; [now apply best_ends|]. intros [st1 [p|]] _; cbn [fst snd]; [|discriminate].
    apply bind_ends; [apply costs_end|]. intros cs _. apply bind_ends; [apply idx_ends|]. intros v0 _.
    apply bind_ends; [apply costs_end|]. intros c0 _. destruct (_ && _); discriminate.
  Qed.
  (** a cell not visited is visited, one visited changes nothing *)
  Lemma rexplore_cell_steps found st vis new c st' vis' new' : J st -> (forall p, In p new -> pointed pool p) ->
    rexplore_cell ar fuel solve g q found (st, vis, new) c = Ok (st', vis', new') ->
    J st' /\ (forall p, In p new' -> pointed pool p) /\ incl vis vis' /\ In (fst c) vis' /\ (In (fst c) vis -> new' = new).
  Proof.
    intros HJ Hp E. unfold rexplore_cell in E.
    destruct (existsb (fun k => k =? fst c) vis) eqn:Ev.
    { injection E as <- <- <-. apply existsb_exists in Ev. destruct Ev as (k & Hk & Ek). apply Nat.eqb_eq in Ek. subst k. repeat split; auto. apply incl_refl. }
    assert (Hn : ~ In (fst c) vis).
    { intros H. assert (existsb (fun k => k =? fst c) vis = true) by (apply existsb_exists; exists (fst c); split; [auto|apply Nat.eqb_refl]). congruence. }
    assert (Hi : incl vis (fst c :: vis)) by (intros x Hx; now right).
    assert (Hc : In (fst c) (fst c :: vis)) by now left.
    apply bind_ok in E. destruct E as (cell & Ec & E). apply bind_ok in E. destruct E as (miss & _ & E).
    destruct miss; [injection E as <- <- <-; repeat split; auto; tauto|].
    apply bind_ok in E. destruct E as ([[rows b]|] & _ & E); [|injection E as <- <- <-; repeat split; auto; tauto].
    destruct (solve rows b) as [al|]; [|injection E as <- <- <-; repeat split; auto; tauto].
    apply bind_ok in E. destruct E as ([st1 o] & Ex & E). cbn [fst snd] in E. pose proof (best_keeps _ _ _ _ HJ Ex) as HJ1.
    destruct o as [p|]; [|injection E as <- <- <-; repeat split; auto; tauto].
    pose proof (best_pool _ _ _ _ HJ Ex) as HP.
    apply bind_ok in E. destruct E as (cs & _ & E). apply bind_ok in E. destruct E as (v0 & _ & E).
    apply bind_ok in E. destruct E as (c0 & _ & E).
    destruct (_ && _); injection E as <- <- <-; repeat split; auto; try tauto.
    intros p' Hp'. apply in_app_or in Hp'. destruct Hp' as [Hp'|[<-|[]]]; auto.
  Qed.
  Lemma rcells_steps found cells : forall st vis new st' vis' new', J st -> (forall p, In p new -> pointed pool p) ->
    foldM (rexplore_cell ar fuel solve g q found) cells (st, vis, new) = Ok (st', vis', new') ->
    J st' /\ (forall p, In p new' -> pointed pool p) /\ incl vis vis' /\ (forall c, In c cells -> In (fst c) vis') /\
    ((forall c, In c cells -> In (fst c) vis) -> new' = new).
  Proof.
    induction cells as [|c cells IH]; intros st vis new st' vis' new' HJ Hp E; cbn [foldM] in E.
    { injection E as <- <- <-. repeat split; auto; [apply incl_refl|intros c []]. }
    apply bind_ok in E. destruct E as ([[st1 vis1] new1] & E1 & E).
    destruct (rexplore_cell_steps _ _ _ _ _ _ _ _ HJ Hp E1) as (A1 & A2 & A3 & A4 & A5).
    destruct (IH _ _ _ _ _ _ A1 A2 E) as (B1 & B2 & B3 & B4 & B5). repeat split; auto.
    - intros x Hx. auto.
    - intros x [<-|Hx]; auto.
    - intros H. rewrite B5; [apply A5, H; now left|]. intros x Hx. apply A3, H. now right.
  Qed.

  (** *** Adding points *)
  Lemma rupdate_path_ends s p : rupdate_path ar T tri_add q s p <> Diverge.
  Proof.
    apply bind_ends; [apply costs_end|]. intros cs _. apply bind_ends.
    { apply bind_ends; [|discriminate]. apply mapM_ends. intros x _. apply bind_ends; [apply idx_ends|discriminate]. }
    intros cc _. apply bind_ends; [apply expect_ends|]. intros [tri id] _. discriminate.
  Qed.
  Lemma rupdate_ends new s : rupdate ar T tri_add q new s <> Diverge.
  Proof. apply (foldM_ends _ (fun _ => True)); auto. intros s' p _. apply rupdate_path_ends. Qed.

  Lemma rupdate_path_steps s p s' : pointed pool p -> rupdate_path ar T tri_add q s p = Ok s' ->
    xs_visited T s' = xs_visited T s /\ xs_dirty T s' = xs_dirty T s /\
    exists c, In c pool /\ (forall x, In x (pts (xs_tri T s')) <-> x = c \/ In x (pts (xs_tri T s))) /\
      (In c (pts (xs_tri T s)) -> forall k vs, In (k, vs) (tri_cells (xs_tri T s')) -> exists vs', In (k, vs') (tri_cells (xs_tri T s))).
  Proof.
    intros Hp E. unfold rupdate_path in E. apply bind_ok in E. destruct E as (cs & Ecs & E). apply path_costs_ok in Ecs.
    apply bind_ok in E. destruct E as (cc & Ecc & E). apply bind_ok in E. destruct E as ([tri id] & Ea & E).
    unfold expect in Ea. destruct (tri_add (xs_tri T s) cc) as [[tri' id']|] eqn:Et; [|discriminate]. injection Ea as -> ->.
    injection E as <-. cbn [xs_visited xs_dirty xs_tri]. split; [reflexivity|]. split; [reflexivity|]. exists cc.
    apply considered_eq in Ecc. subst cc. split; [now apply Hp|]. split; [exact (pts_add _ _ _ _ Et)|exact (pts_same _ _ _ _ Et)].
  Qed.

  Lemma rupdate_steps new : forall s s', (forall p, In p new -> pointed pool p) -> foldM (rupdate_path ar T tri_add q) new s = Ok s' ->
    xs_visited T s' = xs_visited T s /\ xs_dirty T s' = xs_dirty T s /\ incl (pts (xs_tri T s)) (pts (xs_tri T s')) /\
    ((exists c, In c pool /\ In c (pts (xs_tri T s')) /\ ~ In c (pts (xs_tri T s))) \/
     forall k vs, In (k, vs) (tri_cells (xs_tri T s')) -> exists vs', In (k, vs') (tri_cells (xs_tri T s))).
  Proof.
    induction new as [|p new IH]; intros s s' Hp E; cbn [foldM] in E.
    { injection E as <-. repeat split; auto; [apply incl_refl|]. right. eauto. }
    apply bind_ok in E. destruct E as (s1 & E1 & E).
    destruct (rupdate_path_steps s p s1 (Hp p (or_introl eq_refl)) E1) as (A1 & A2 & c & A3 & A4 & A5).
    destruct (IH s1 s' (fun x Hx => Hp x (or_intror Hx)) E) as (B1 & B2 & B3 & B4).
    split; [congruence|]. split; [congruence|]. split; [intros x Hx; apply B3, A4; auto|].
    destruct (in_dec point_dec c (pts (xs_tri T s))) as [Hin|Hout].
    - destruct B4 as [(d & D1 & D2 & D3)|B4].
      + left. exists d. repeat split; auto. intros H. apply D3, A4. auto.
      + right. intros k vs Hk. destruct (B4 k vs Hk) as (vs' & Hk'). exact (A5 Hin k vs' Hk').
    - left. exists c. repeat split; auto. apply B3, A4. auto.
  Qed.

  (** *** Rounds *)
  Notation missing := (ProofExploreEnds.missing T pool pts).
  Notation idle := (ProofExploreEnds.idle T tri_cells).
  Lemma rexplore_ends rounds : forall st s, J st ->
    (idle s /\ 1 <= rounds \/ 2 * length (missing (xs_tri T s)) + 2 <= rounds) ->
    rexplore ar fuel T tri_add tri_cells solve g q rounds st s <> Diverge.
  Proof.
    induction rounds as [|k IH]; intros st s HJ Hb; cbn [rexplore]; destruct (xs_dirty T s) eqn:Ed; try discriminate.
    { destruct Hb as [[_ Hb]|Hb]; lia. }
    apply bind_ends.
    { apply (foldM_ends _ (fun x => J (fst (fst x)) /\ forall p, In p (snd x) -> pointed pool p)).
      - intros x c [Hx _]. now apply rexplore_cell_ends.
      - intros [[sa va] na] c [[sb vb] nb] [Ja Pa] E. destruct (rexplore_cell_steps _ _ _ _ _ _ _ _ Ja Pa E) as (X & Y & _). now split.
      - split; [exact HJ|]. intros p [].
    }
    intros [[st1 vis] new] E1. apply bind_ends; [apply rupdate_ends|]. intros s1 E2.
    destruct (rcells_steps _ _ _ _ _ _ _ _ HJ (fun p (H : In p []) => match H with end) E1) as (A1 & A2 & A3 & A4 & A5).
    unfold rupdate in E2. cbn [xs_tri xs_found xs_tolerated xs_visited] in E2.
    destruct (rupdate_steps _ _ _ A2 E2) as (B1 & B2 & B3 & B4). cbn [xs_visited xs_dirty xs_tri] in *.
    destruct Hb as [[Hi _]|Hb].
    - specialize (A5 Hi). subst new. destruct k; cbn [rexplore]; rewrite B2; discriminate.
    - apply IH; auto. destruct (missing_less T pool pts _ _ B3) as [M1 M2]. destruct B4 as [B4|B4].
      + specialize (M2 B4). right. lia.
      + left. split; [|lia]. intros [kc vs] Hc. rewrite B1. cbn [fst]. destruct (B4 _ _ Hc) as (vs' & Hc'). exact (A4 _ Hc').
  Qed.
End Ends.

Definition rcosts_of_edges (ar : f64 -> f64) (g : graph) (es : list nat) : list f64 :=
  match foldM (fun acc e => do m <- edge_metrics g e; Ok (rvadd ar acc m)) es (repeat f0 (metric_dim g)) with
  | Ok cs => cs
  | _ => []
  end.
Definition rpoints_of (ar : f64 -> f64) (g : graph) (imc : list bool) : list (list f64) :=
  map (fun es => map snd (filter fst (combine imc (rcosts_of_edges ar g es)))) (ProofExploreEnds.lists_of (edge_count g FWD) (2 * node_count g)).

Section Graph.
  Variables (u eta : Q) (rnd : Q -> Q) (top : Q).
  Hypothesis R : rounding u eta rnd.
  Hypothesis top_nonneg : (0 <= top)%Q.
  Notation ar := (ofin rnd top).
  Variable g : graph.
  Hypothesis wf : wf_graph g.
  Hypothesis Hnn : nonneg_metrics g.

  Lemma rbest_pool fuel q st al st' p : rhistory_h st -> roomy st g -> xq_src q < node_count g -> xq_dst q < node_count g ->
    rxbest ar fuel g q st al = Ok (st', Some p) -> pointed q (rpoints_of ar g (xq_imc q)) p.
  Proof.
    intros Hh Hr Hs Ht Ex. unfold rxbest in Ex. apply bind_ok in Ex. destruct Ex as ([st1 [p0|]] & Ec & Ex);
      cbn [fst snd] in Ex; [|discriminate].
    apply bind_ok in Ex. destruct Ex as (p1 & Ep & Ex). injection Ex as <- <-.
    destruct (any_path_h ar g fuel st _ _ _ st1 p0 eq_refl eq_refl wf Hh Hr Hs Ht Ec) as (_ & _ & _ & _ & A5 & A6 & A7).
    unfold rcalc_costs in Ep. rewrite A5 in Ep. apply bind_ok in Ep. destruct Ep as (cs & Ecs & Ep). injection Ep as <-.
    intros cs' E. cbn [p_costs] in E. injection E as <-. unfold rpoints_of, point. apply in_map_iff. exists (p_edges p0).
    unfold rcosts_of_edges. rewrite Ecs. split; [reflexivity|]. apply ProofExploreEnds.lists_of_in; [lia|]. exact (connects_exist _ _ _ _ A6).
  Qed.

  Lemma rbest_ends fuel q st al : rhistory_h st -> roomy st g -> xq_src q < node_count g -> xq_dst q < node_count g ->
    2 + 2 * powers (edge_count g FWD) (node_count g) <= fuel -> rxbest ar fuel g q st al <> Diverge.
  Proof.
    intros Hh Hr Hs Ht Hf. unfold rxbest. apply bind_ends.
    - now apply (ofin_path_h_ends u eta rnd top R top_nonneg).
    - intros [st1 [p|]] _; cbn [fst snd]; [|discriminate]. apply bind_ends; [|discriminate].
      unfold rcalc_costs. destruct (p_costs p); [discriminate|]. apply bind_ends; [|discriminate].
      apply (foldM_ends _ (fun _ => True)); auto. intros acc e _. apply bind_ends; [apply idx_ends|discriminate].
  Qed.

  Lemma rset_tolerance_ends rc costs tol mi : rset_tolerance ar rc costs tol mi <> Diverge.
  Proof.
    destruct mi as [i|]; [|discriminate]. cbn [rset_tolerance]. apply bind_ends; [apply idx_ends|]. intros sc _.
    destruct (feqb sc PInf); [apply set_ends|]. apply bind_ends; [apply idx_ends|]. intros x _. apply set_ends.
  Qed.

  Lemma rinit_step_keeps fuel q x ia x' : rhistory_h (fst (fst x)) -> roomy (fst (fst x)) g -> rinit_step ar fuel g q x ia = Ok x' ->
    rhistory_h (fst (fst x')) /\ roomy (fst (fst x')) g.
  Proof.
    destruct x as [[st0 tol] found], x' as [[st1 tol1] found1]. cbn [fst]. intros A B E. unfold rinit_step in E. apply bind_ok in E.
    destruct E as ([st2 o] & Ex & E). cbn [fst snd] in E. pose proof (rxbest_history _ _ _ _ _ _ _ _ A B Ex) as G.
    assert (st1 = st2); [|now subst]. destruct o as [p|].
    - apply bind_ok in E. destruct E as (cs & _ & E). apply bind_ok in E. destruct E as (tol' & _ & E). apply bind_ok in E. destruct E as (l & _ & E).
      destruct (existsb _ l); injection E as <- _ _; auto.
    - injection E as <- _ _; auto.
  Qed.

  Lemma rinitial_keeps fuel q st x : rhistory_h st -> roomy st g -> rexplore_initial_paths ar fuel g q st = Ok x ->
    rhistory_h (fst (fst x)) /\ roomy (fst (fst x)) g.
  Proof.
    intros A B E. unfold rexplore_initial_paths in E. apply bind_ok in E. destruct E as (ias & _ & E).
    revert E. apply (foldM_keeps _ (fun x => rhistory_h (fst (fst x)) /\ roomy (fst (fst x)) g)); [|now split].
    intros y ia y' [Ha Hb] E. exact (rinit_step_keeps _ _ _ _ _ Ha Hb E).
  Qed.

  Lemma rinitial_ends fuel q st : rhistory_h st -> roomy st g -> xq_src q < node_count g -> xq_dst q < node_count g ->
    2 + 2 * powers (edge_count g FWD) (node_count g) <= fuel -> rexplore_initial_paths ar fuel g q st <> Diverge.
  Proof.
    intros Hh Hr Hs Ht Hf. unfold rexplore_initial_paths. apply bind_ends; [unfold init_alphas; destruct (32 <=? xq_dim q); discriminate|]. intros ias _.
    apply (foldM_ends _ (fun x => rhistory_h (fst (fst x)) /\ roomy (fst (fst x)) g)); [| |auto].
    - intros [[st0 tol] found] ia [A B]. cbn [fst] in *. unfold rinit_step. apply bind_ends; [now apply rbest_ends|].
      intros [st1 [p|]] _; cbn [fst snd].
      + apply bind_ends; [apply costs_end|]. intros cs _. apply bind_ends; [apply rset_tolerance_ends|]. intros tol' _.
        apply bind_ends; [apply mapM_ends; intros x _; apply costs_end|]. intros l _. destruct (existsb _ l); discriminate.
      + discriminate.
    - intros x ia x' [A B] E. exact (rinit_step_keeps _ _ _ _ _ A B E).
  Qed.

  Definition renough_rounds : nat := 2 * length (ProofExploreEnds.lists_of (edge_count g FWD) (2 * node_count g)) + 2.

  Lemma rexploration_ends fuel T tri_new tri_add tri_cells solve rounds rc s t st : no_new_cells T tri_new tri_add tri_cells ->
    rhistory_h st -> roomy st g -> s < node_count g -> t < node_count g ->
    2 + 2 * powers (edge_count g FWD) (node_count g) <= fuel -> renough_rounds <= rounds ->
    rfully_explorate ar fuel T tri_new tri_add tri_cells solve rounds g rc s t st <> Diverge.
  Proof.
    intros (pts & _ & Hp) Hh Hr Hs Ht Hf HN. unfold rfully_explorate. cbv zeta.
    apply bind_ends; [now apply rinitial_ends|]. intros [[st1 tol] new] E1.
    pose proof (rinitial_keeps _ _ _ _ Hh Hr E1) as HJ. cbn [fst] in HJ.
    match goal with |- context [rupdate ar T tri_add ?x new] => set (q := x) end.
    apply bind_ends; [apply rupdate_ends|]. intros s1 _. apply bind_ends.
    - match goal with |- (if ?b then _ else _) <> _ => destruct b; [|discriminate] end.
      apply (rexplore_ends ar fuel T tri_add tri_cells solve g q (fun d => rhistory_h d /\ roomy d g)) with (pool := rpoints_of ar g (xq_imc q)) (pts := pts); auto.
      + intros d al [A B]. now apply rbest_ends.
      + intros d al d' r [A B] E. exact (rxbest_history _ _ _ _ _ _ _ _ A B E).
      + intros d al d' p [A B] E. exact (rbest_pool fuel q d al d' p A B Hs Ht E).
      + intros x y x' id E. exact (proj1 (Hp _ _ _ _ E)).
      + intros x y x' id E. exact (proj2 (Hp _ _ _ _ E)).
      + right. unfold renough_rounds in HN.
        assert (G : forall {A} (f : A -> bool) m, length (filter f m) <= length m)
          by (intros A f m; induction m as [|a m IHm]; cbn [filter length]; [lia|destruct (f a); cbn [length]; lia]).
        pose proof (G _ (fun c => if in_dec point_dec c (pts (xs_tri T s1)) then false else true) (rpoints_of ar g (xq_imc q))) as Hle.
        unfold rpoints_of in Hle at 2. rewrite map_length in Hle. unfold missing. lia.
    - intros [st2 s2] _. apply bind_ends; [apply collect_ends|discriminate].
  Qed.
End Graph.
