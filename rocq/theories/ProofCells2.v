(** Lemmas about what is explored at a cell *)
From Coq Require Import List Bool Arith Lia QArith Qabs Lqa.
From Verif Require Import Base F64 Lib ModelApprox ModelUnits ModelConfig ModelGraph ModelBuild ModelDijkstra ModelExplorator
  Spec SpecRouting SpecPaths SpecExplorator SpecCells ProofApprox ProofDijkstra ProofPaths ProofExplorator PropsRouting ProofCells.
Import ListNotations.
Open Scope nat_scope.

(** *** Weights that are equal give equal costs *)
Lemma qdot_alike x : forall y c, length x = length y ->
  (forall i a b, nth_error x i = Some a -> nth_error y i = Some b -> (a == b)%Q) -> (qdot x c == qdot y c)%Q.
Proof.
  induction x as [|a x IH]; intros [|b y] c Hl H; try discriminate; [reflexivity|].
  destruct c as [|z c]; [now rewrite !qdot_nil|]. rewrite !qdot_cons. rewrite (H 0 a b eq_refl eq_refl).
  rewrite (IH y c); [reflexivity|injection Hl; auto|]. intros i p q Hp Hq. exact (H (S i) p q Hp Hq).
Qed.

Lemma alike_fin x y : alike (map Fin x) (map Fin y) <->
  forall i a b, nth_error x i = Some a -> nth_error y i = Some b -> (a == b)%Q.
Proof.
  unfold alike. split.
  - intros H i a b Ha Hb. apply (H i); now rewrite nth_error_map, ?Ha, ?Hb.
  - intros H i a b Ha Hb. rewrite nth_error_map in Ha, Hb.
    destruct (nth_error x i) eqn:E1, (nth_error y i) eqn:E2; try discriminate. injection Ha as <-. injection Hb as <-. eauto.
Qed.

Lemma weighted_alike x y ms w : length x = length y -> numbers ms ->
  (forall i a b, nth_error x i = Some a -> nth_error y i = Some b -> (a == b)%Q) ->
  weighted_sum (map Fin x) ms = Some w -> exists w', weighted_sum (map Fin y) ms = Some w' /\ (w == w')%Q.
Proof.
  intros Hl (qs & ->) H E. rewrite weighted_fin in *. injection E as <-. eexists. split; [reflexivity|]. now apply qdot_alike.
Qed.

Lemma numbers_of l : (forall x, In x l -> exists q, x = Fin q) -> numbers l.
Proof.
  induction l as [|x l IH]; intros H; [now exists []|]. destruct IH as (qs & ->); [intros y Hy; apply H; now right|].
  destruct (H x (or_introl eq_refl)) as (q & ->). now exists (q :: qs).
Qed.

Lemma costs_alike g x y : finite_metrics g -> length x = length y ->
  (forall i a b, nth_error x i = Some a -> nth_error y i = Some b -> (a == b)%Q) ->
  forall l w, costs_as g (map Fin x) l w -> exists w', costs_as g (map Fin y) l w' /\ (w == w')%Q.
Proof.
  intros Hf Hl H l w Hc. induction Hc as [|e l ms a b Em Ea Hb (b' & Hb' & Eb)].
  - exists 0%Q. split; [constructor|reflexivity].
  - destruct (weighted_alike x y ms a Hl) as (a' & Ea' & Eq); auto.
    { apply numbers_of. intros z Hz. eapply Hf; eauto. }
    exists (a' + b')%Q. split; [econstructor; eauto|]. now rewrite Eq, Eb.
Qed.

(** *** The costs of a path and the costs of its edges *)
Section Linear.
  Variable hav : coord -> coord -> f64.
  Variable c : cfg.
  Variables ch1 ch2 : nat.
  Variable es : list proto_edge.
  Variable ns : list proto_node.
  Variable g : graph.
  Hypothesis H1 : 1 <= ch1.
  Hypothesis H2 : 1 <= ch2.
  Hypothesis Hb : build hav c ch1 ch2 es ns = Ok g.
  Hypothesis Hal : aligned_metrics g.
  Hypothesis Hf : finite_metrics g.

  Definition qadd (a b : list Q) : list Q := map (fun p => (fst p + snd p)%Q) (combine a b).
  Lemma qadd_length a b : length a = length b -> length (qadd a b) = length a.
  Proof. intros H. unfold qadd. rewrite map_length, combine_length. lia. Qed.
  Lemma qdot_qadd x : forall a b, length a = length b -> (qdot x (qadd a b) == qdot x a + qdot x b)%Q.
  Proof.
    induction x as [|z x IH]; intros a b H; [cbn; ring|].
    destruct a as [|y a], b as [|w b]; try discriminate; [cbn; ring|].
    change (qadd (y :: a) (w :: b)) with ((y + w)%Q :: qadd a b). rewrite !qdot_cons, IH by (injection H; auto). ring.
  Qed.
  Lemma qadd_nth a : forall b i x y, nth_error a i = Some x -> nth_error b i = Some y -> nth_error (qadd a b) i = Some (x + y)%Q.
  Proof.
    induction a as [|u a IH]; intros [|v b] [|i] x y Hx Hy; try discriminate; cbn in *.
    - congruence.
    - apply (IH b i x y Hx Hy).
  Qed.

  Lemma path_vector x s l t : connects g s l t ->
    exists qs w, length qs = metric_dim g /\ (forall i q, nth_error qs i = Some q -> sums g i l q) /\
      costs_as g (map Fin x) l w /\ (w == qdot x qs)%Q.
  Proof.
    intros Hc. pose proof (connects_exist _ _ _ _ Hc) as Hex. clear Hc. induction l as [|e l IH].
    - exists (repeat 0%Q (metric_dim g)), 0%Q. split; [apply repeat_length|]. split; [|split; [constructor|]].
      + intros i q E. apply nth_error_In, repeat_spec in E. subst. constructor.
      + rewrite qdot_comm, qdot_zeros. reflexivity.
    - destruct IH as (qs & w & Hl & Hs & Hw & Ew); [intros z Hz; apply Hex; now right|].
      destruct (build_metrics _ _ _ _ _ _ _ e H1 H2 Hb (Hex e (or_introl eq_refl))) as (ms & Em).
      assert (Hn : numbers ms) by (apply numbers_of; intros z Hz; eapply Hf; eauto). destruct Hn as (vs & ->).
      pose proof (Hal _ _ Em) as Hlv. rewrite map_length in Hlv.
      exists (qadd vs qs), (qdot x vs + w)%Q. split; [rewrite qadd_length; congruence|]. split; [|split].
      + intros i q E. assert (Hi : i < length vs).
        { rewrite <- (qadd_length vs qs) by congruence. apply nth_error_Some. congruence. }
        destruct (nth_error vs i) as [a|] eqn:Ea; [|apply nth_error_None in Ea; lia].
        destruct (nth_error qs i) as [b|] eqn:Eb; [|apply nth_error_None in Eb; lia].
        rewrite (qadd_nth _ _ _ _ _ Ea Eb) in E. injection E as <-. constructor; [|auto].
        unfold metric_of. now rewrite Em, nth_error_map, Ea.
      + econstructor; eauto. apply weighted_fin.
      + rewrite qdot_qadd by congruence. now rewrite Ew.
  Qed.

  Lemma real_costed s t p : real_path g s t p -> exists cs, p_costs p = Some cs /\ numbers cs /\ length cs = metric_dim g.
  Proof.
    intros (_ & _ & Hc & cs & Ec & Hl & Hs). exists cs. split; auto. split; auto.
    apply numbers_of. intros x Hx. apply In_nth_error in Hx. destruct Hx as (i & Hi).
    assert (Hlt : i < metric_dim g) by (rewrite <- Hl; apply nth_error_Some; congruence).
    destruct (sums_exist _ _ _ _ _ _ _ i H1 H2 Hb Hf Hal Hlt _ _ _ Hc) as (q & Hq).
    destruct (Hs i q Hlt Hq) as (q' & E & _). exists q'. congruence.
  Qed.

  (** weighting the costs of a path is adding up the weighted edges *)
  Lemma real_cost x s t p : real_path g s t p ->
    exists w w', cost_under (map Fin x) p w /\ costs_as g (map Fin x) (p_edges p) w' /\ (w == w')%Q.
  Proof.
    intros Hp. destruct (real_costed _ _ _ Hp) as (cs & Ec & (cv & ->) & Hl). rewrite map_length in Hl.
    destruct Hp as (_ & _ & Hc & cs' & Ec' & Hl' & Hs). assert (cs' = map Fin cv) by congruence. subst cs'.
    destruct (path_vector x _ _ _ Hc) as (qs & w & Hq & Hsum & Hw & Ew).
    exists (qdot x cv), w. split; [now apply (cost_under_fin x p cv)|]. split; auto. rewrite Ew, !(qdot_comm x).
    apply qdot_alike; [congruence|]. intros i a b Ha Hb'. specialize (Hsum i b Hb').
    assert (Hi : i < metric_dim g) by (rewrite <- Hl; apply nth_error_Some; congruence).
    destruct (Hs i b Hi Hsum) as (q' & E & Hq'). rewrite nth_error_map, Ha in E. cbn in E. injection E as ->. exact Hq'.
  Qed.
End Linear.

Lemma costs_unique g al l : forall a b, costs_as g al l a -> costs_as g al l b -> a = b.
Proof.
  induction l as [|e l IH]; intros a b Ha Hb; inversion Ha; inversion Hb; subst; auto.
  replace a1 with a0 by congruence. f_equal. eauto.
Qed.

(** *** One cell *)
Section Cell.
  Variable hav : coord -> coord -> f64.
  Variable cf : cfg.
  Variables ch1 ch2 : nat.
  Variable pes : list proto_edge.
  Variable pns : list proto_node.
  Variable g : graph.
  Hypothesis H1 : 1 <= ch1.
  Hypothesis H2 : 1 <= ch2.
  Hypothesis Hb : build hav cf ch1 ch2 pes pns = Ok g.
  Hypothesis Hnn : nonneg_metrics g.
  Hypothesis Hal : aligned_metrics g.
  Hypothesis Hf : finite_metrics g.
  Variable pick : nat -> list costnode -> nat.
  Variable delta : Q.
  Hypothesis Hdel : (0 <= delta)%Q.
  Hypothesis Hpk : picks_min delta pick.
  Variable fuel : nat.
  Variable q : xquery.
  Hypothesis Hs : xq_src q < node_count g.
  Hypothesis Ht : xq_dst q < node_count g.
  Hypothesis Hdim : xq_dim q = metric_dim g.
  Hypothesis Himc : length (xq_imc q) = xq_dim q.
  Hypothesis Halgo : finds_cheapest g (xq_rc q).
  Variable solve : list (list f64) -> list f64 -> option (list f64).
  Hypothesis Hsolve : exact_solver (metric_dim g) solve.

  Definition real (p : path) : Prop := real_path g (xq_src q) (xq_dst q) p.
  Definition K : nat := considered_metrics (xq_imc q).

  Lemma numbers_nonneg al : numbers al -> existsb (fun a => fltb a f0) al = false -> Forall not_negative al.
  Proof.
    intros (x & ->) H. apply Forall_forall. intros a Ha. apply in_map_iff in Ha. destruct Ha as (y & <- & Hy). cbn.
    destruct (Qlt_le_dec y 0) as [Hl|Hl]; auto. exfalso. assert (E : existsb (fun a => fltb a f0) (map Fin x) = true); [|congruence].
    apply existsb_exists. exists (Fin y). split; [now apply in_map|]. unfold fltb, f0. cbn. apply Qlt_alt in Hl. unfold Qcompare in *. now rewrite Hl.
  Qed.

  Lemma xbest_cheapest st al st' p : history st -> roomy st g -> numbers al -> xbest pick fuel g q st al = Ok (st', Some p) ->
    real p /\ Forall not_negative al /\ exists w, cost_under al p w /\
      forall l w', connects g (xq_src q) l (xq_dst q) -> costs_as g al l w' -> (w <= w' + 2 * delta)%Q.
  Proof.
    intros Hh Hr (x & ->) Ex. pose proof (xbest_real _ _ _ _ _ _ _ _ _ _ _ _ _ _ H1 H2 Hb Hnn Hal Hh Hr Hs Ht (proj1 Hpk) Ex) as Hp.
    unfold xbest in Ex. apply bind_ok in Ex. destruct Ex as ([st1 o] & Ec & Ex). cbn [fst snd] in Ex. destruct o as [p0|]; [|discriminate].
    apply bind_ok in Ex. destruct Ex as (p1 & Ep & Ex). injection Ex as <- <-.
    assert (Halg : finds_cheapest g (with_alphas (xq_rc q) (map Fin x))) by exact Halgo.
    destruct (cheapest_found _ _ _ _ _ _ _ _ _ _ _ _ _ _ _ _ H1 H2 Hb Hnn Hh Hr Hs Ht Hdel Hpk Halg Ec) as (qp & Hqp & Hmin).
    cbn [with_alphas rc_alphas] in *.
    assert (Ee : p_edges p1 = p_edges p0).
    { unfold calc_costs in Ep. destruct (p_costs p0); [now injection Ep as <-|]. apply bind_ok in Ep. destruct Ep as (? & _ & Ep). now injection Ep as <-. }
    split; auto. split; [exact (alphas_of_some _ _ _ _ _ _ _ _ _ Ec)|].
    destruct (real_cost _ _ _ _ _ _ _ H1 H2 Hb Hal Hf x _ _ _ Hp) as (w & w' & Hw & Hw' & E). exists w. split; auto.
    rewrite Ee in Hw'. rewrite (costs_unique _ _ _ _ _ Hw' Hqp) in E. intros l v Hl Hv. rewrite E. eauto.
  Qed.

  Lemma xbest_none st al st' : history st -> roomy st g -> Forall not_negative al -> xbest pick fuel g q st al = Ok (st', None) ->
    forall l w', connects g (xq_src q) l (xq_dst q) -> ~ costs_as g al l w'.
  Proof.
    intros Hh Hr Hn Ex l w' Hl Hw. unfold xbest in Ex. apply bind_ok in Ex. destruct Ex as ([st1 o] & Ec & Ex). cbn [fst snd] in Ex.
    destruct o as [p0|]; [apply bind_ok in Ex; destruct Ex as (p1 & Ep & Ex); discriminate|].
    assert (Halg : finds_cheapest g (with_alphas (xq_rc q) al)) by exact Halgo.
    assert (Hna : Forall not_negative (rc_alphas (with_alphas (xq_rc q) al))) by exact Hn.
    apply (cheapest_none _ _ _ _ _ _ _ _ _ _ _ _ _ _ H1 H2 Hb Hnn Hh Hr Hs Ht Hna (proj1 Hpk) Halg Ec). exists l, w'. auto.
  Qed.

  Lemma real_cells found vs cell : (forall id p, lookup id found = Some p -> real p) -> cell_from found vs = Ok cell ->
    Forall2 (fun id p => lookup id found = Some p) vs cell /\ (forall p, In p cell -> real p) /\ costed (xq_dim q) cell.
  Proof.
    intros Hr E. unfold cell_from in E. apply mapM_ok in E.
    assert (F : Forall2 (fun id p => lookup id found = Some p) vs cell).
    { induction E; constructor; auto. unfold expect in H. destruct (lookup x found); congruence. }
    assert (R : forall p, In p cell -> real p).
    { intros p Hp. apply In_nth_error in Hp. destruct Hp as (k & Hk).
      destruct (nth_error vs k) as [id|] eqn:Ev.
      - destruct (Forall2_nth _ _ _ _ _ F Ev) as (p' & Hp' & Hl). assert (p' = p) by congruence. subst. eauto.
      - apply nth_error_None in Ev. pose proof (Forall2_len _ _ _ F). assert (k < length cell) by (apply nth_error_Some; congruence). lia. }
    split; auto. split; auto. intros p Hp. rewrite Hdim. exact (real_costed _ _ _ _ _ _ _ H1 H2 Hb Hal Hf _ _ _ (R p Hp)).
  Qed.

  Lemma dot_cost x p cs w : p_costs p = Some cs -> cost_under (map Fin x) p w ->
    exists r, dot_product (map Fin x) cs = Fin r /\ (r == w)%Q.
  Proof. intros Ec (cs' & Ec' & H). assert (cs' = cs) by congruence. subst. now apply dot_some. Qed.

  Lemma zeros_alike n x : length x = n -> (forall i a b, nth_error x i = Some a -> nth_error (repeat 0%Q n) i = Some b -> (a == b)%Q) ->
    forall c, (qdot x c == 0)%Q.
  Proof. intros Hl H c. rewrite (qdot_alike x (repeat 0%Q n)); [apply qdot_zeros|now rewrite repeat_length|exact H]. Qed.

  (** the weights the solver answers *)
  Lemma answered cell rows b al : costed (xq_dim q) cell -> create_linear_system q cell = Ok (Some (rows, b)) -> solve rows b = Some al ->
    numbers al /\ length al = xq_dim q /\
    (length cell = K /\ facet_weights (xq_dim q) (xq_imc q) cell al \/
     length cell = S K /\ forall p w, cost_under al p w -> In p cell \/ (exists cs, p_costs p = Some cs /\ numbers cs) -> (w == 0)%Q).
  Proof.
    intros Hc El Es. assert (Hne : cell <> []) by (intros ->; discriminate El).
    destruct (system_spec q cell Himc Hc Hne) as (A & B & C). fold K in *.
    assert (Hn : length cell = K \/ length cell = S K).
    { destruct (lt_eq_lt_dec (length cell) K) as [[H|H]|H]; auto.
      - rewrite (B H) in El. discriminate.
      - destruct (Nat.eq_dec (length cell) (S K)); auto. rewrite A in El by lia. discriminate. }
    destruct (C Hn) as (rows' & b' & E' & Ht' & Hnr & Hlb & Hnb & Hz & Hsol). rewrite E' in El. injection El as -> ->.
    rewrite Hdim in Ht', Hlb. destruct (Hsolve rows b Ht' Hnr Hlb Hnb) as [S1 _]. destruct (S1 al Es) as (N & L & Sv & U). rewrite <- Hdim in L.
    split; auto. split; auto. apply Hsol in Sv; auto. destruct Sv as (S2 & S3 & S4). destruct Hn as [Hn|Hn].
    - left. split; auto. repeat split; auto.
    - right. split; auto. specialize (Hz Hn). subst b. destruct N as (x & ->). rewrite map_length in L.
      assert (Hx : forall c, (qdot x c == 0)%Q).
      { apply (zeros_alike (xq_dim q)); auto. apply alike_fin. apply U; [now eexists|now rewrite map_length, repeat_length|].
        apply Hsol; [now eexists|now rewrite map_length, repeat_length|]. split; [|split].
        - intros p p' w w' Hp Hp' Hw Hw'. destruct (Hc p Hp) as (c & Ec & (cv & ->) & _). destruct (Hc p' Hp') as (c' & Ec' & (cv' & ->) & _).
          apply (cost_under_fin _ _ _ _ Ec) in Hw. apply (cost_under_fin _ _ _ _ Ec') in Hw'. subst. now rewrite !qdot_zeros.
        - apply ignores_iff; [now rewrite repeat_length|]. intros i a _ Ha. apply nth_error_In, repeat_spec in Ha. now subst.
        - lia. }
      intros p w Hw Hor. assert (Hcs : exists cs, p_costs p = Some cs /\ numbers cs).
      { destruct Hor as [Hp|H]; auto. destruct (Hc p Hp) as (cs & ? & ? & _). eauto. }
      destruct Hcs as (cs & Ec & (cv & ->)). apply (cost_under_fin _ _ _ _ Ec) in Hw. now subst.
  Qed.

  Lemma approx_lt_fin a b : approx_lt (Fin a) (Fin b) = true <-> (a + TOL <= b)%Q.
  Proof.
    unfold approx_lt. rewrite <- approx_cmp_lt. destruct (approx_cmp (Fin a) (Fin b)) as [[]|]; split; intros H; auto; discriminate.
  Qed.

  (** a path added at a cell undercuts the cell *)
  Lemma cell_added found st vis new c st' vis' new' :
    (forall id p, lookup id found = Some p -> real p) -> history st -> roomy st g ->
    explore_cell pick fuel solve g q found (st, vis, new) c = Ok (st', vis', new') ->
    new' = new \/
    exists p cell al, new' = new ++ [p] /\ Forall2 (fun id v => lookup id found = Some v) (snd c) cell /\ real p /\
      length cell = K /\ facet_weights (xq_dim q) (xq_imc q) cell al /\ Forall not_negative al /\
      exists w, cost_under al p w /\
        (forall v wv, In v cell -> cost_under al v wv -> (w + TOL <= wv)%Q) /\
        forall l w', connects g (xq_src q) l (xq_dst q) -> costs_as g al l w' -> (w <= w' + 2 * delta)%Q.
  Proof.
    intros Hfound Hh Hr E. unfold explore_cell in E. destruct (existsb _ vis); [injection E as <- <- <-; auto|].
    apply bind_ok in E. destruct E as (cell & Ec & E). destruct (real_cells _ _ _ Hfound Ec) as (F & Rc & Cc).
    apply bind_ok in E. destruct E as (miss & _ & E). destruct miss; [injection E as <- <- <-; auto|].
    apply bind_ok in E. destruct E as ([[rows b]|] & El & E); [|injection E as <- <- <-; auto].
    destruct (solve rows b) as [al|] eqn:Es; [|injection E as <- <- <-; auto].
    apply bind_ok in E. destruct E as ([st1 o] & Ex & E). cbn [fst snd] in E. destruct o as [p|]; [|injection E as <- <- <-; auto].
    apply bind_ok in E. destruct E as (cs & Ecs & E). apply bind_ok in E. destruct E as (v0 & Ev & E).
    apply bind_ok in E. destruct E as (c0 & Ec0 & E). apply path_costs_ok in Ecs, Ec0.
    destruct (answered _ _ _ _ Cc El Es) as (N & L & Hw).
    destruct (xbest_cheapest _ _ _ _ Hh Hr N Ex) as (Rp & Na & w & Hwp & Hmin).
    destruct (approx_lt (dot_product al cs) (dot_product al c0)) eqn:Elt; cbn [andb] in E; [|injection E as <- <- <-; auto].
    destruct (negb _); [|injection E as <- <- <-; auto]. injection E as <- <- <-. right.
    apply idx_ok in Ev. pose proof (nth_error_In _ _ Ev) as Hv0. destruct N as (x & ->).
    destruct (real_cost _ _ _ _ _ _ _ H1 H2 Hb Hal Hf x _ _ _ (Rc v0 Hv0)) as (w0 & _ & Hw0 & _).
    destruct (dot_cost x p cs w Ecs Hwp) as (r & Er & Hrw). destruct (dot_cost x v0 c0 w0 Ec0 Hw0) as (r0 & Er0 & Hrw0).
    rewrite Er, Er0 in Elt. apply approx_lt_fin in Elt. destruct Hw as [[Hk Hfw]|[Hk Hz]].
    - exists p, cell, (map Fin x). split; auto. split; auto. split; auto. split; auto. split; auto. split; auto.
      exists w. split; auto. split; auto. intros v wv Hv Hwv. destruct Hfw as (_ & _ & Heq & _).
      pose proof (Heq v v0 wv w0 Hv Hv0 Hwv Hw0). lra.
    - exfalso. destruct (real_costed _ _ _ _ _ _ _ H1 H2 Hb Hal Hf _ _ _ Rp) as (cp & Ecp & Ncp & _).
      pose proof (Hz p w Hwp (or_intror (ex_intro _ cp (conj Ecp Ncp)))). pose proof (Hz v0 w0 Hw0 (or_introl Hv0)).
      unfold TOL in *. lra.
  Qed.

  Lemma not_missed cell miss : within_tolerances (xq_tol q) cell -> misses_tolerance (xq_tol q) cell = Ok miss -> miss = false.
  Proof.
    intros Hw E. unfold misses_tolerance in E. apply bind_ok in E. destruct E as (cs & Ecs & E). apply bind_ok in E.
    destruct E as (l & El & E). injection E as <-. apply mapM_ok in Ecs, El.
    destruct (existsb (fun b => b) l) eqn:Ee; auto. exfalso. apply existsb_exists in Ee. destruct Ee as (b & Hb' & ->).
    apply In_nth_error in Hb'. destruct Hb' as (k & Hk).
    destruct (nth_error (enumerate (xq_tol q)) k) as [[i x]|] eqn:Ei.
    2:{ apply nth_error_None in Ei. pose proof (Forall2_len _ _ _ El). assert (k < length l) by (apply nth_error_Some; congruence). lia. }
    destruct (Forall2_nth _ _ _ _ _ El Ei) as (b' & Hb' & Hds). assert (b' = true) by congruence. subst b'. cbn [fst snd] in Hds.
    apply bind_ok in Hds. destruct Hds as (ds & Eds & Hds). injection Hds as Hds. apply negb_true_iff in Hds.
    apply nth_error_In, enumerate_in in Ei. destruct (Hw i x Ei) as (p & cp & y & Hp & Ecp & Ey & Hle).
    apply In_nth_error in Hp. destruct Hp as (j & Hj). destruct (Forall2_nth _ _ _ _ _ Ecs Hj) as (cp' & Hcp & Epc).
    apply path_costs_ok in Epc. assert (cp' = cp) by congruence. subst cp'.
    apply mapM_ok in Eds. destruct (Forall2_nth _ _ _ _ _ Eds Hcp) as (y' & Hy' & Ey'). apply idx_ok in Ey'. assert (y' = y) by congruence. subst y'.
    assert (existsb (fun d => fleb d x) ds = true); [|congruence]. apply existsb_exists. exists y. split; auto. eapply nth_error_In; eauto.
  Qed.

  (** weights with which a cell of the exploration is looked at *)
  Definition looked_at (cell : list path) (al : list f64) : Prop :=
    length cell = K /\ within_tolerances (xq_tol q) cell /\ facet_weights (xq_dim q) (xq_imc q) cell al /\
    determined (xq_dim q) (xq_imc q) cell al /\ Forall not_negative al.

  Lemma fold_edges_eqb a : forall b, nats_eqb a b = true -> a = b.
  Proof.
    induction a as [|x a IH]; intros [|y b] H; try discriminate; auto. cbn in H. apply andb_true_iff in H. destruct H as [H1' H2'].
    apply Nat.eqb_eq in H1'. subst. f_equal. auto.
  Qed.

  (** the solver answers the weights of a cell that has only these *)
  Lemma answer_exists cell al : cell <> [] -> costed (xq_dim q) cell -> looked_at cell al ->
    exists rows b al', create_linear_system q cell = Ok (Some (rows, b)) /\ solve rows b = Some al' /\
      numbers al' /\ length al' = xq_dim q /\ alike al al' /\ Forall not_negative al'.
  Proof.
    intros Hne Hc (Hk & _ & Hfw & Hd & Hn).
    destruct (system_spec q cell Himc Hc Hne) as (_ & _ & C). fold K in *.
    destruct (C (or_introl Hk)) as (rows & b & El & Ht' & Hnr & Hlb & Hnb & _ & Hsol). rewrite Hdim in Ht', Hlb.
    destruct (Hsolve rows b Ht' Hnr Hlb Hnb) as [S1 S2]. pose proof Hfw as (N & L & F1 & F2 & F3).
    assert (Sal : solves rows al b) by (apply Hsol; auto).
    destruct (solve rows b) as [al'|] eqn:Es.
    2:{ exfalso. refine (S2 al N _ Sal _ eq_refl); [congruence|]. intros y Ny Ly Sy. rewrite <- Hdim in Ly.
        apply Hsol in Sy; auto. apply Hd. destruct Sy as (A & B & C'). repeat split; auto. }
    exists rows, b, al'. split; auto. split; auto. destruct (S1 al' eq_refl) as (N' & L' & Sv & _). rewrite <- Hdim in L'.
    split; auto. split; auto. apply Hsol in Sv; auto. destruct Sv as (A & B & C').
    assert (Hlike : alike al al') by (apply Hd; repeat split; auto). split; auto.
    apply Forall_forall. intros a Ha. apply In_nth_error in Ha. destruct Ha as (i & Hi). destruct N as (x & ->). destruct N' as (x' & ->).
    rewrite map_length in *. rewrite nth_error_map in Hi. destruct (nth_error x' i) as [a'|] eqn:Ea'; [|discriminate]. injection Hi as <-.
    destruct (nth_error x i) as [a0|] eqn:Ea0; [|apply nth_error_None in Ea0; assert (i < length x') by (apply nth_error_Some; congruence); lia].
    apply alike_fin with (i := i) (a := a0) (b := a') in Hlike; auto. rewrite Forall_forall in Hn.
    specialize (Hn (Fin a0)). cbn in *. rewrite <- Hlike. apply Hn. apply in_map. eapply nth_error_In; eauto.
  Qed.

  Lemma cheapest_alike x y eps paths : length x = length y -> alike (map Fin x) (map Fin y) -> (forall p, In p paths -> real p) ->
    has_cheapest g (map Fin y) (xq_src q) (xq_dst q) eps paths -> has_cheapest g (map Fin x) (xq_src q) (xq_dst q) eps paths.
  Proof.
    intros Hl Hlike Hp (p & w & Hin & Hw & Hmin). rewrite alike_fin in Hlike.
    destruct (real_costed _ _ _ _ _ _ _ H1 H2 Hb Hal Hf _ _ _ (Hp p Hin)) as (cs & Ec & (cv & ->) & _).
    exists p, (qdot x cv). split; auto. split; [now apply (cost_under_fin x p cv)|]. intros l w' Hcl Hw'.
    destruct (costs_alike g x y Hf Hl Hlike l w' Hw') as (w2 & Hw2 & E2). apply (cost_under_fin _ _ _ _ Ec) in Hw. subst w.
    rewrite (qdot_alike x y cv Hl Hlike), E2. eauto.
  Qed.

  (** after a cell was looked at, a cheapest path for its weights is known *)
  Lemma cell_settled found st vis new c st' vis' new' cell al : 0 < K ->
    (forall id p, lookup id found = Some p -> real p) -> (forall p, In p new -> real p) -> history st -> roomy st g ->
    existsb (fun k => k =? fst c) vis = false ->
    explore_cell pick fuel solve g q found (st, vis, new) c = Ok (st', vis', new') ->
    Forall2 (fun id v => lookup id found = Some v) (snd c) cell -> looked_at cell al ->
    has_cheapest g al (xq_src q) (xq_dst q) (TOL + 2 * delta) (cell ++ new').
  Proof.
    intros HK Hfound Hnew Hh Hr Hvis E F Hla. unfold explore_cell in E. rewrite Hvis in E.
    apply bind_ok in E. destruct E as (cell' & Ec & E). destruct (real_cells _ _ _ Hfound Ec) as (F' & Rc & Cc).
    assert (cell' = cell).
    { clear -F F'. revert cell' F'. induction F; intros cell' F'; inversion F'; subst; auto. f_equal; [congruence|auto]. }
    subst cell'. assert (Hne : cell <> []) by (destruct Hla as [Hk _]; intros ->; cbn in Hk; lia).
    destruct (answer_exists cell al Hne Cc Hla) as (rows & b & al' & El & Es & N' & L' & Hlike & Hn').
    pose proof Hla as (_ & Hwt & ((x & ->) & L & _) & _ & _). destruct N' as (x' & ->). rewrite map_length in L, L'.
    apply bind_ok in E. destruct E as (miss & Em & E). rewrite (not_missed _ _ Hwt Em) in E. rewrite El in E. cbn [bind] in E. rewrite Es in E.
    apply bind_ok in E. destruct E as ([st1 o] & Ex & E). cbn [fst snd] in E.
    destruct cell as [|v0 rest]; [congruence|]. assert (Rv0 : real v0) by (apply Rc; now left).
    destruct (real_cost _ _ _ _ _ _ _ H1 H2 Hb Hal Hf x' _ _ _ Rv0) as (w0 & wv & Hw0 & Hwv & _).
    assert (HT : (0 <= TOL)%Q) by (unfold TOL; lra).
    destruct o as [p|].
    2:{ exfalso. injection E as <- <- <-. destruct Rv0 as (_ & _ & Hcon & _).
        exact (xbest_none _ _ _ Hh Hr Hn' Ex _ _ Hcon Hwv). }
    destruct (xbest_cheapest _ _ _ _ Hh Hr (ex_intro _ x' eq_refl) Ex) as (Rp & Na & w & Hwp & Hmin).
    apply bind_ok in E. destruct E as (cs & Ecs & E). cbn [idx nth_error bind] in E. apply bind_ok in E. destruct E as (c0 & Ec0 & E). apply path_costs_ok in Ecs, Ec0.
    destruct (dot_cost x' p cs w Ecs Hwp) as (r & Er & Hrw). destruct (dot_cost x' v0 c0 w0 Ec0 Hw0) as (r0 & Er0 & Hrw0).
    rewrite Er, Er0 in E. apply (cheapest_alike x x'); auto; [congruence| |].
    { intros p' Hp'. apply in_app_or in Hp'. destruct Hp' as [Hp'|Hp']; [auto|].
      destruct (_ && _); injection E as <- <- <-; [apply in_app_or in Hp'; destruct Hp' as [Hp'|[<-|[]]]|]; auto. }
    destruct (approx_lt (Fin r) (Fin r0)) eqn:Elt; cbn [andb] in E.
    - destruct (existsb (fun p' => path_eqb p' p) new) eqn:Ee; cbn [negb] in E; injection E as <- <- <-.
      + apply existsb_exists in Ee. destruct Ee as (p' & Hp' & Eq). unfold path_eqb in Eq. apply andb_true_iff in Eq. destruct Eq as [_ Eq].
        apply fold_edges_eqb in Eq. pose proof (Hnew p' Hp') as Rp'.
        destruct (real_cost _ _ _ _ _ _ _ H1 H2 Hb Hal Hf x' _ _ _ Rp') as (u & u' & Hu & Hu' & Eu).
        destruct (real_cost _ _ _ _ _ _ _ H1 H2 Hb Hal Hf x' _ _ _ Rp) as (z & z' & Hz & Hz' & Ez).
        rewrite Eq in Hu'. rewrite (costs_unique _ _ _ _ _ Hu' Hz') in Eu.
        assert (z = w) by (destruct Hz as (? & ? & ?), Hwp as (? & ? & ?); congruence). subst z.
        exists p', u. split; [apply in_or_app; auto|]. split; auto. intros l w' Hl Hw'. specialize (Hmin l w' Hl Hw'). lra.
      + exists p, w. split; [apply in_or_app; right; apply in_or_app; right; now left|]. split; auto.
        intros l w' Hl Hw'. specialize (Hmin l w' Hl Hw'). lra.
    - injection E as <- <- <-. exists v0, w0. split; [now left|]. split; auto. intros l w' Hl Hw'. specialize (Hmin l w' Hl Hw').
      destruct (Qlt_le_dec w0 (w + TOL)) as [Hlt|Hge]; [lra|]. exfalso.
      assert (approx_lt (Fin r) (Fin r0) = true); [|congruence]. apply approx_lt_fin. lra.
  Qed.
End Cell.
