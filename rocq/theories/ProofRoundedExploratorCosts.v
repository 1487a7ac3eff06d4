(** What the explorator calculates of a path *)
From Coq Require Import String List Bool Arith ZArith QArith Qabs Lia Lqa NArith.
From Verif Require Import Base F64 Lib ModelApprox ModelUnits ModelConfig ModelGraph ModelBuild ModelDijkstra ModelExplorator
  ModelHeap ModelRounded ModelRoundedHeap ModelRoundedExplorator
  Spec SpecRouting SpecPaths SpecExplorator SpecRounded SpecRoundedHeap SpecRoundedExplorator ProofDijkstra ProofRouting ProofPaths ProofExplorator ProofRounded ProofRoundedRun
  ProofHeap ProofHeapSearch ProofRoundedHeap ProofRounding64 ProofOverflow PropsRounded PropsOverflow ProofCompare64 ProofRoundedAny ProofRoundedExplorator.
Import ListNotations.
Open Scope list_scope.
Open Scope nat_scope.

(** *** Any arithmetic *)
Lemma any_rvadd ar a : forall b i z, nth_error (rvadd ar a b) i = Some z ->
  exists x y, nth_error a i = Some x /\ nth_error b i = Some y /\ z = radd ar x y.
Proof.
  induction a as [|u a IH]; intros [|w b] [|i] z E; simpl in *; try discriminate.
  - injection E as <-. eauto.
  - eauto.
Qed.
Lemma any_rvadd_length ar a : forall b, length b = length a -> length (rvadd ar a b) = length a.
Proof. induction a as [|v a IH]; intros [|w b] H; simpl in *; try reflexivity; try discriminate. f_equal. apply IH. lia. Qed.

Lemma rcosts_any ar g es : aligned_metrics g -> forall pre cs cs',
  foldM (fun acc e => do m <- edge_metrics g e; Ok (rvadd ar acc m)) es cs = Ok cs' ->
  length cs = metric_dim g -> (forall i x, nth_error cs i = Some x -> rsums ar g i pre x) ->
  length cs' = metric_dim g /\ forall i x, nth_error cs' i = Some x -> rsums ar g i (pre ++ es) x.
Proof.
  intros Ha. induction es as [|e es IH]; intros pre cs cs' E L H; cbn [foldM] in E.
  - injection E as <-. rewrite app_nil_r. auto.
  - apply bind_ok in E. destruct E as (cs1 & E1 & E). apply bind_ok in E1. destruct E1 as (ms & Em & E1). injection E1 as <-.
    change (e :: es) with ([e] ++ es). rewrite app_assoc. apply (IH (pre ++ [e]) _ _ E).
    + rewrite any_rvadd_length; [auto|]. rewrite (Ha _ _ Em). auto.
    + intros i x Hx. apply any_rvadd in Hx. destruct Hx as (a & m & Ea & Hm & ->).
      apply rsums_snoc; [auto|]. unfold metric_of. now rewrite Em.
Qed.

(** an answered query is a road which carries its costs *)
Lemma rasked_costed ar g fuel q al p : ar PInf = PInf -> ar NaN = NaN -> wf_graph g -> aligned_metrics g ->
  xq_src q < node_count g -> xq_dst q < node_count g -> rasked ar fuel g q al (Some p) ->
  costed_road ar g (xq_src q) (xq_dst q) p /\ length (p_edges p) + 2 <= 2 * node_count g.
Proof.
  intros A1 A2 W Ha Hs Ht (st & st' & Hh & Hr & E). unfold rxbest in E. apply bind_ok in E. destruct E as ([st1 [p0|]] & Ec & E); cbn [fst snd] in E; [|discriminate].
  apply bind_ok in E. destruct E as (p1 & Ep & E). injection E as <- ->.
  destruct (any_path_h ar g fuel st _ _ _ st1 p0 A1 A2 W Hh Hr Hs Ht Ec) as (B1 & B2 & B3 & B4 & B5 & B6 & B7).
  unfold rcalc_costs in Ep. rewrite B5 in Ep. apply bind_ok in Ep. destruct Ep as (cs & Ef & Ep). injection Ep as <-. cbn.
  split; [|exact B7]. unfold costed_road. cbn. repeat (split; [now auto|]). exists cs. split; [reflexivity|].
  destruct (rcosts_any ar g (p_edges p0) Ha [] _ _ Ef) as [C D].
  - apply repeat_length.
  - intros i x Hx. apply nth_error_In, repeat_spec in Hx. subst x. constructor.
  - split; auto.
Qed.

(** *** binary64 *)
Lemma ordinary_finite g : ordinary64 g -> finite_metrics g.
Proof. intros [_ H] e ms x E Hx. destruct (H e ms x E Hx) as (q & -> & _). eauto. Qed.
Lemma ordinary_nonneg g : ordinary64 g -> nonneg_metrics g.
Proof. intros [_ H] e ms x E Hx. destruct (H e ms x E Hx) as (q & -> & Q0 & _). exact Q0. Qed.
Lemma ordinary_metric g e i m : ordinary64 g -> metric_of g e i = Some m -> exists q, m = Fin q /\ (0 <= q)%Q /\ (q <= inject_Z (2 ^ 1000))%Q.
Proof.
  intros [_ H] E. unfold metric_of in E. destruct (edge_metrics g e) as [ms| | |] eqn:Em; try discriminate.
  exact (H e ms m Em (nth_error_In _ _ E)).
Qed.

Lemma sums_snoc g i es q : sums g i es q -> forall e m, metric_of g e i = Some (Fin m) ->
  exists q', sums g i (es ++ [e]) q' /\ (q' == q + m)%Q.
Proof.
  induction 1 as [|f es a b Ef Hs IH]; intros e m E; cbn [app].
  - exists (m + 0)%Q. split; [constructor; [auto|constructor]|ring].
  - destruct (IH e m E) as (q' & H & K). exists (a + q')%Q. split; [now constructor|]. rewrite K. ring.
Qed.
Lemma sums_same g i es q : sums g i es q -> forall q', sums g i es q' -> q = q'.
Proof.
  induction 1 as [|f es a b Ef Hs IH]; intros q' H'; inversion H' as [|f' es' a' b' Ef' Hs']; subst; auto.
  rewrite (IH _ Hs'). congruence.
Qed.

Lemma near_numbers n q y : (Z.of_nat (n + 2) <= 2 ^ 20)%Z -> ProofRounded.near u64 eta64 n n q y ->
  ((1 - Qpower (2 # 1) (- (33))) * q - inject_Z (2 ^ 42) * eta64 <= y)%Q /\
  (y <= (1 + 2 * Qpower (2 # 1) (- (33))) * (q + inject_Z (2 ^ 42) * eta64))%Q.
Proof.
  intros Hn H. pose proof (ProofRounded.near_weaken u64 eta64 rnd64 rounding64 n n (depth 0 n) (operations 0 n) q y) as K.
  destruct K as (A & B & C); [unfold depth; lia|unfold operations; lia|exact H|].
  destruct (low_64 0 n q) as (L & U & _); [unfold depth, million; lia|exact A|]. unfold at_least in L. unfold at_most in U.
  set (O := (inject_Z (2 ^ 42) * eta64)%Q) in *. split; lra.
Qed.

Lemma rsums_near g i es z : ordinary64 g -> rsums ieee g i es z -> (Z.of_nat (length es + 2) <= 2 ^ 20)%Z ->
  exists y q, z = Fin y /\ (0 <= y)%Q /\ sums g i es q /\ ProofRounded.near u64 eta64 (length es) (length es) q y /\
    (0 <= q)%Q /\ (q <= nq (length es) * inject_Z (2 ^ 1000))%Q.
Proof.
  intros Ho. induction 1 as [|e es m a Hs IH Em]; intros Hn.
  - exists 0%Q, 0%Q. split; [reflexivity|]. split; [lra|]. split; [constructor|]. cbn [length]. split; [|split; [lra|change (nq 0) with 0%Q; lra]].
    split; [lra|]. cbn [pow]. change (nq 0) with 0%Q. split; lra.
  - rewrite app_length in Hn. cbn [length] in Hn. destruct IH as (y & q & -> & Hy & Hq & Hnear & Hq0 & Hq1); [lia|].
    destruct (ordinary_metric _ _ _ _ Ho Em) as (m' & -> & M0 & M1).
    destruct (sums_snoc _ _ _ _ Hq _ _ Em) as (q' & Hq' & Eq').
    rewrite app_length. cbn [length]. rewrite Nat.add_1_r.
    assert (Hm : ProofRounded.near u64 eta64 (length es) 0 m' m').
    { apply (ProofRounded.near_weaken u64 eta64 rnd64 rounding64 0 0); [lia|lia|]. split; [auto|]. cbn [pow]. change (nq 0) with 0%Q. split; lra. }
    pose proof (near_plus u64 eta64 rnd64 rounding64 (length es) (length es) 0 q m' y m' Hy M0 Hnear Hm) as Hp.
    rewrite Nat.add_0_r, Nat.add_1_r in Hp. set (n := length es) in *.
    assert (Hqn : (q' <= nq (S n) * inject_Z (2 ^ 1000))%Q).
    { rewrite nq_S, Eq'. set (W := inject_Z (2 ^ 1000)) in *. clearbody W. lra. }
    assert (Hp' : ProofRounded.near u64 eta64 (S n) (S n) q' (rnd64 (y + m'))).
    { apply (near_proper u64 eta64 _ _ (q + m') _ (rnd64 (y + m'))); [now symmetry|reflexivity|exact Hp]. }
    assert (Hr0 : (0 <= rnd64 (y + m'))%Q) by (apply (rnd_nonneg u64 eta64 rnd64 rounding64); lra).
    assert (Htop : (rnd64 (y + m') <= top64)%Q).
    { destruct (near_numbers (S n) q' (rnd64 (y + m'))) as [_ U]; [lia|exact Hp'|].
      eapply Qle_trans; [exact U|]. set (W := inject_Z (2 ^ 1000)) in *.
      assert (W0 : (0 <= W)%Q) by (vm_compute; discriminate).
      assert (Hq2 : (nq (S n) * W <= inject_Z (2 ^ 20) * W)%Q).
      { apply Qmult_le_compat_r; [|exact W0]. unfold nq. rewrite <- Zle_Qle. lia. }
      apply Qle_trans with ((1 + 2 * Qpower (2 # 1) (- (33))) * (inject_Z (2 ^ 20) * W + inject_Z (2 ^ 42) * eta64))%Q; [|vm_compute; discriminate].
      assert (Hk : (0 < 1 + 2 * Qpower (2 # 1) (- (33)))%Q) by (vm_compute; reflexivity).
      apply Qmult_le_l; [exact Hk|]. set (x1 := (inject_Z (2 ^ 20) * W)%Q) in *. set (x2 := (inject_Z (2 ^ 42) * eta64)%Q).
      assert (q' <= x1)%Q by (eapply Qle_trans; [exact Hqn|exact Hq2]). lra. }
    exists (rnd64 (y + m')), q'. split.
    { cbn [fadd]. unfold ieee, ofin. rewrite (proj2 (Qle_bool_iff _ _) Htop).
      rewrite (proj2 (Qle_bool_iff (- top64) _)); [reflexivity|]. assert (0 <= top64)%Q by (vm_compute; discriminate). set (r := rnd64 (y + m')) in *. lra. }
    split; [exact Hr0|]. split; [exact Hq'|]. split; [exact Hp'|]. split; [rewrite Eq'; lra|exact Hqn].
Qed.

Lemma rsums_billionth g i es z : ordinary64 g -> rsums ieee g i es z -> (Z.of_nat (length es + 2) <= 2 ^ 20)%Z ->
  exists y q, z = Fin y /\ (0 <= y)%Q /\ (0 <= q)%Q /\ sums g i es q /\ billionth_off q y.
Proof.
  intros Ho H Hn. destruct (rsums_near _ _ _ _ Ho H Hn) as (y & q & -> & Hy & Hq & Hnear & Hq0 & _).
  exists y, q. repeat (split; [now auto|]). destruct (near_numbers _ _ _ Hn Hnear) as [L U]. unfold billionth_off.
  assert (Se : (inject_Z (2 ^ 46) * eta64 <= (1 # 2) * Qpower (2 # 1) (- (1000)))%Q) by (vm_compute; discriminate).
  assert (Pe : (0 <= eta64)%Q) by (apply Qlt_le_weak, (B_pos (- (1075)))).
  set (tiny := Qpower (2 # 1) (- (1000))) in *. set (et := eta64) in *.
  change (inject_Z (2 ^ 46)) with (70368744177664 # 1)%Q in Se.
  change (inject_Z (2 ^ 42)) with (4398046511104 # 1)%Q in *.
  change (Qpower (2 # 1) (- (33))) with (1 # 8589934592)%Q in *.
  change (Qpower (2 # 1) (- (30))) with (1 # 1073741824)%Q.
  clearbody tiny et. clear - L U Se Pe Hq0. split; lra.
Qed.

(** *** Comparing with tolerances *)
Lemma rapprox_le_nth ar a : forall b i x y, rapprox_le_vec ar a b = true -> nth_error a i = Some x -> nth_error b i = Some y ->
  rapprox_cmp ar x y <> Some Gt.
Proof.
  induction a as [|u a IH]; intros [|w b] [|i] x y H Hx Hy; simpl in *; try discriminate.
  - injection Hx as ->. injection Hy as ->. intros K. rewrite K in H. discriminate.
  - destruct (rapprox_cmp ar u w) as [[]|]; try discriminate; eauto.
Qed.
Lemma cmp_within64 z x : rapprox_cmp ieee z x <> Some Gt -> within64 z x.
Proof.
  intros H. destruct z as [a| | |], x as [y| | |]; cbn [within64]; auto.
  - destruct (rapprox_eq_64 ieee a y (or_intror eq_refl)) as [_ K]. apply Qnot_le_lt. intros L. apply H.
    unfold rapprox_cmp. rewrite K.
    + cbn [fcmp]. f_equal. apply Qgt_alt. assert (0 < accuracy64)%Q by (vm_compute; reflexivity). lra.
    + eapply Qle_trans; [|apply Qle_Qabs]. lra.
Qed.
