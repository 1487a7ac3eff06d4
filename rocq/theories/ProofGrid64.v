(** Numbers that are multiples of a power of two stay so when they are rounded *)
From Coq Require Import String List Bool Arith ZArith QArith Qabs Qround Lia Lqa.
From Verif Require Import Base F64 Lib ModelUnits ModelConfig ModelGraph ModelDijkstra Spec ModelRounded ModelRoundedHeap SpecRounded SpecRouting SpecRoundedHeap
  ProofRounded ProofRounding64 ProofOverflow PropsOverflow ProofCompare64.
Import ListNotations.
Open Scope Q_scope.

Lemma grid_proper k x y : x == y -> on_grid k x -> on_grid k y.
Proof. intros E (z & H). exists z. lra. Qed.
Lemma grid_zero k : on_grid k 0.
Proof. exists 0%Z. ring. Qed.
Lemma grid_plus k x y : on_grid k x -> on_grid k y -> on_grid k (x + y).
Proof. intros (a & Ha) (b & Hb). exists (a + b)%Z. rewrite inject_Z_plus, Ha, Hb. ring. Qed.
Lemma grid_opp k x : on_grid k x -> on_grid k (- x).
Proof. intros (a & Ha). exists (- a)%Z. rewrite inject_Z_opp, Ha. ring. Qed.
Lemma grid_mult a b x y : on_grid a x -> on_grid b y -> on_grid (a + b) (x * y).
Proof.
  intros (m & Hm) (n & Hn). exists (m * n)%Z. fold (B (a + b)). rewrite B_plus, inject_Z_mult, Hm, Hn. unfold B. ring.
Qed.

Lemma pos64_grid k q : 0 < q -> on_grid k q -> on_grid k (pos64 q).
Proof.
  intros Hq (z & Hz). fold (B k) in Hz. destruct (Z_le_gt_dec k (last_bit q)) as [H|H].
  - exists (significand q * 2 ^ (last_bit q - k))%Z. fold (B k). rewrite pos64_is, inject_Z_mult.
    replace (last_bit q) with ((last_bit q - k) + k)%Z at 1 by lia. rewrite B_plus, (B_nat (last_bit q - k)) by lia. ring.
  - exists z. fold (B k). rewrite pos64_is. unfold significand.
    assert (E : q * B (- last_bit q) == inject_Z (z * 2 ^ (k - last_bit q))).
    { generalize dependent (last_bit q). intros e He. rewrite Hz, inject_Z_mult, <- (B_nat (k - e)) by lia. replace (k - e)%Z with (k + - e)%Z by lia.
      rewrite B_plus. ring. }
    rewrite (rne_proper _ _ E), rne_int, <- E, scaled. exact Hz.
Qed.
Lemma rnd64_grid k q : on_grid k q -> on_grid k (rnd64 q).
Proof.
  intros H. destruct (sign_cases q) as [X|[X|X]].
  - rewrite (rnd64_pos _ X). now apply pos64_grid.
  - rewrite (rnd64_zero _ X). apply grid_zero.
  - rewrite (rnd64_neg _ X). apply grid_opp, pos64_grid; [lra|]. now apply grid_opp.
Qed.
Lemma of64_grid ar k x : of64 ar -> finite_on_grid k x -> finite_on_grid k (ar x).
Proof.
  intros Ho H r E. assert (G : exists q, x = Fin q /\ r = rnd64 q).
  { destruct Ho as [-> | ->]; destruct x as [q| | |]; try discriminate; exists q; split; auto; cbn in E; try congruence.
    destruct (Qle_bool (rnd64 q) top64); [|discriminate]. destruct (Qle_bool _ _); [|discriminate]. congruence. }
  destruct G as (q & -> & ->). apply rnd64_grid. now apply H.
Qed.
Lemma fgrid_plus k x y : finite_on_grid k x -> finite_on_grid k y -> finite_on_grid k (fadd x y).
Proof. intros Hx Hy r E. destruct (fadd_fin _ _ _ E) as (a & b & -> & -> & ->). apply grid_plus; auto. Qed.
Lemma fgrid_mult a b x y : finite_on_grid a x -> finite_on_grid b y -> finite_on_grid (a + b) (fmul x y).
Proof. intros Hx Hy r E. destruct (fmul_fin _ _ _ E) as (p & q & -> & -> & ->). apply grid_mult; auto. Qed.
Lemma rdot_grid ar a b al : of64 ar -> forall ms acc, Forall (finite_on_grid a) al -> Forall (finite_on_grid b) ms -> finite_on_grid (a + b) acc ->
  finite_on_grid (a + b) (rdot_from ar acc al ms).
Proof.
  intros Ho. induction al as [|x al IH]; intros [|m ms] acc Ha Hm Hc; cbn [rdot_from]; auto.
  inversion Ha; inversion Hm; subst. apply IH; auto. unfold radd, rmul. apply (of64_grid ar); [auto|]. apply fgrid_plus; [auto|]. apply (of64_grid ar); [auto|]. now apply fgrid_mult.
Qed.

(** the exact costs *)
Lemma sum_grid a b al : forall ms w, Forall (finite_on_grid a) al -> Forall (finite_on_grid b) ms -> weighted_sum al ms = Some w -> on_grid (a + b) w.
Proof.
  unfold weighted_sum. induction al as [|x al IH]; intros [|m ms] w Ha Hm E; cbn [combine fold_right] in E; try (injection E as <-; apply grid_zero).
  inversion Ha; inversion Hm; subst. destruct x as [p| | |]; try discriminate. destruct m as [r| | |]; try discriminate.
  destruct (fold_right _ _ _) as [s|] eqn:Es; [|discriminate]. injection E as <-. apply grid_plus; [|now apply (IH ms)].
  apply grid_mult; auto.
Qed.
Lemma costs_grid g a b al l q : Forall (finite_on_grid a) al ->
  (forall e ms, edge_metrics g e = Ok ms -> Forall (finite_on_grid b) ms) -> costs_as g al l q -> on_grid (a + b) q.
Proof.
  intros Ha Hm. induction 1 as [|e es ms w c Em Ew Hc IH]; [apply grid_zero|]. apply grid_plus; [|exact IH].
  apply (sum_grid a b al ms w); eauto.
Qed.

Lemma grid_close k x y : on_grid k x -> on_grid k y -> x < y + B k -> x <= y.
Proof.
  intros (a & Ha) (b & Hb) H. fold (B k) in Ha, Hb. pose proof (B_pos k) as P. rewrite Ha, Hb in *.
  assert (L : (a <= b)%Z).
  { destruct (Z_le_gt_dec a b) as [L|L]; auto. exfalso. assert (M : (b + 1 <= a)%Z) by lia. rewrite Zle_Qle, inject_Z_plus in M.
    change (inject_Z 1) with 1 in M. assert ((inject_Z b + 1) * B k <= inject_Z a * B k) by (apply Qmult_le_compat_r; lra). lra. }
  rewrite Zle_Qle in L. apply Qmult_le_compat_r; lra.
Qed.

(** multiples of 2^-19 are equal if they are regarded as equal *)
Lemma grid_apart ar k a b : of64 ar -> (- (19) <= k)%Z -> on_grid k a -> on_grid k b -> rapprox_eq ar (Fin a) (Fin b) = true -> Qabs (a - b) <= 0.
Proof.
  intros Ho Hk Ha Hb E. destruct (rapprox_eq_64 ar a b Ho) as [_ F].
  assert (H : Qabs (a - b) < accuracy64).
  { apply Qnot_le_lt. intros K. rewrite (F K) in E. discriminate. }
  assert (T : accuracy64 < B (- (19))) by (apply by_lt; vm_compute; reflexivity).
  pose proof (B_mono _ _ Hk) as M. apply Qabs_Qle_condition.
  assert (L : a <= b).
  { apply (grid_close k); auto. pose proof (Qle_Qabs (a - b)). lra. }
  assert (L' : b <= a).
  { apply (grid_close k); auto. pose proof (Qle_Qabs (- (a - b))) as Q. rewrite Qabs_opp in Q. lra. }
  lra.
Qed.
