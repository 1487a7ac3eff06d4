(** Lemmas about the balancer's statistics with the arithmetic of `f64` *)
From Coq Require Import String List Bool Arith ZArith QArith Qabs Lia Lqa.
From Verif Require Import Base F64 Lib ModelApprox ModelUnits ModelConfig ModelGraph ModelBuild ModelDijkstra ModelBalancing ModelStats
  ModelRounded ModelRoundedHeap ModelRoundedMetrics ModelRoundedStats SpecBalancing SpecRounded SpecRoundedMetrics SpecRoundedStats
  ProofRounded ProofRounding64 ProofFactor64 ProofCompare64 ProofRoundedUpdate PropsRounded PropsStats.
Import ListNotations.
Open Scope list_scope.
Open Scope Q_scope.

Lemma mul_abs a b A C : - A <= a -> a <= A -> - C <= b -> b <= C -> - (A * C) <= a * b /\ a * b <= A * C.
Proof.
  intros. apply Qabs_Qle_condition. rewrite Qabs_Qmult.
  apply Qmult_le_compat_nonneg; (split; [apply Qabs_nonneg|apply Qabs_Qle_condition; split; lra]).
Qed.
Lemma div_within x N b : 0 < N -> - (b * N) <= x -> x <= b * N -> - b <= x / N /\ x / N <= b.
Proof. intros HN H1 H2. split; [apply Qle_shift_div_l; auto; lra|apply Qle_shift_div_r; auto]. Qed.
Lemma fdiv_at a N : 0 < N -> fdiv (Fin a) (Fin N) = Fin (a / N).
Proof. apply fdiv_pos. Qed.

Section Steps.
  Variables (u top : Q).
  Hypothesis Hu : 0 <= u.
  Hypothesis Hu1 : (1000 # 1) * u <= 1.
  Hypothesis op : forall x b, 1 <= b -> b <= top -> - b <= x -> x <= b ->
    exists y, ieee (Fin x) = Fin y /\ x - 2 * (u * b) <= y /\ y <= x + 2 * (u * b).
  Variables (K N M : Q).
  Hypothesis HK : 1 <= K.
  Hypothesis HN : K <= N.
  Hypothesis HM : 1 <= M.

  Lemma small b : 0 <= b -> 0 <= u * b /\ (1000 # 1) * (u * b) <= b.
  Proof.
    intros Hb. assert (A : 0 * b <= u * b) by (apply Qmult_le_compat_r; auto).
    assert (C : ((1000 # 1) * u) * b <= 1 * b) by (apply Qmult_le_compat_r; auto). split; lra.
  Qed.

  (** one step of the mean *)
  Lemma mean_step m S : (4 # 1) * (K * M) <= top -> - (2 * M) <= m -> m <= 2 * M -> 0 <= S -> S <= K * M ->
    exists m', radd ieee (Fin m) (rdiv ieee (rsub ieee (Fin S) (rmul ieee (Fin K) (Fin m))) (Fin N)) = Fin m' /\
      m + (S - K * m) / N - (32 # 1) * (u * M) <= m' /\ m' <= m + (S - K * m) / N + (32 # 1) * (u * M).
  Proof.
    intros Htop Hm1 Hm2 HS1 HS2.
    assert (PN : 0 < N) by lra.
    assert (HKM : 1 * M <= K * M) by (apply Qmult_le_compat_r; lra).
    assert (HNM : K * M <= N * M) by (apply Qmult_le_compat_r; lra).
    destruct (small M) as [um0 um1]; [lra|]. destruct (small (K * M)) as [ua0 ua1]; [lra|].
    assert (HuN : u * (K * M) <= u * M * N) by (assert (u * (K * M) == (u * M) * K) as -> by ring; rewrite (Qmult_comm (u * M) K), (Qmult_comm (u * M) N); apply Qmult_le_compat_r; lra).
    destruct (mul_abs K m K (2 * M)) as [P1 P2]; try lra. assert (EK : K * (2 * M) == 2 * (K * M)) by ring. rewrite EK in P1, P2.
    unfold rmul at 1. cbn [fmul]. destruct (op (K * m) (2 * (K * M))) as (p & Ep & Lp & Gp); try lra. rewrite Ep.
    assert (E2 : u * (2 * (K * M)) == 2 * (u * (K * M))) by ring. rewrite E2 in Lp, Gp.
    unfold rsub at 1. unfold fsub. cbn [fneg fadd].
    destruct (op (S + - p) (4 * (K * M))) as (q & Eq & Lq & Gq); try lra. rewrite Eq.
    assert (E3 : u * (4 * (K * M)) == 4 * (u * (K * M))) by ring. rewrite E3 in Lq, Gq.
    set (D := S - K * m) in *. assert (HD : D == S - K * m) by reflexivity. clearbody D.
    assert (Q1 : D - 12 * (u * (K * M)) <= q) by lra. assert (Q2 : q <= D + 12 * (u * (K * M))) by lra.
    unfold rdiv at 1. rewrite fdiv_at by auto.
    destruct (div_within q N (4 * M) PN) as [R1 R2]; try lra.
    destruct (op (q / N) (4 * M)) as (r & Er & Lr & Gr); try lra. rewrite Er.
    assert (E4 : u * (4 * M) == 4 * (u * M)) by ring. rewrite E4 in Lr, Gr.
    assert (W : - (12 * (u * M)) <= (q - D) / N /\ (q - D) / N <= 12 * (u * M)) by (apply div_within; auto; lra).
    assert (EW : (q - D) / N == q / N - D / N) by (field; lra). rewrite EW in W. destruct W as [W1 W2].
    assert (X : - (2 * M) <= (m * (N - K) + S) / N /\ (m * (N - K) + S) / N <= 2 * M).
    { destruct (mul_abs m (N - K) (2 * M) (N - K)) as [Y1 Y2]; try lra.
      assert (EY : 2 * M * (N - K) == 2 * (N * M) - 2 * (K * M)) by ring. rewrite EY in Y1, Y2. apply div_within; auto; lra. }
    assert (EX : (m * (N - K) + S) / N == m + D / N) by (rewrite HD; field; lra). rewrite EX in X. destruct X as [X1 X2].
    unfold radd. cbn [fadd]. destruct (op (m + r) (3 * M)) as (m' & Em & Lm & Gm); try lra.
    assert (E5 : u * (3 * M) == 3 * (u * M)) by ring. rewrite E5 in Lm, Gm.
    exists m'. split; [exact Em|]. split; lra.
  Qed.

  (** sums *)
  Lemma sum_step (f : nat -> f64) (t c : nat -> Q) b F T : 1 <= b -> b <= top -> 0 <= F -> K * (F + 2 * (u * b)) <= b ->
    forall ys i s C, nq i + nq (length ys) <= K ->
    (forall x, In x ys -> f x = Fin (t x) /\ - F <= t x /\ t x <= F /\ c x - T <= t x /\ t x <= c x + T) ->
    C - nq i * (T + 2 * (u * b)) <= s -> s <= C + nq i * (T + 2 * (u * b)) ->
    - (nq i * (F + 2 * (u * b))) <= s -> s <= nq i * (F + 2 * (u * b)) ->
    exists s', fold_left (radd ieee) (map f ys) (Fin s) = Fin s' /\
      let k := nq i + nq (length ys) in
      (C + qsum (map c ys)) - k * (T + 2 * (u * b)) <= s' /\ s' <= (C + qsum (map c ys)) + k * (T + 2 * (u * b)) /\ - b <= s' /\ s' <= b.
  Proof.
    intros Hb Htop HF HKb. assert (H0 : 0 <= u * b) by (apply small; lra).
    induction ys as [|y ys IH]; intros i s C Hi Hf S1 S2 S3 S4; cbn [map fold_left length qsum].
    - exists s. split; [reflexivity|]. cbn [length] in Hi. change (nq 0) with 0 in *.
      assert (nq i * (F + 2 * (u * b)) <= K * (F + 2 * (u * b))) by (apply Qmult_le_compat_r; lra).
      assert (EE : (nq i + 0) * (T + 2 * (u * b)) == nq i * (T + 2 * (u * b))) by ring. cbv zeta. rewrite EE. repeat split; lra.
    - destruct (Hf y (or_introl eq_refl)) as (Ey & Y1 & Y2 & Y3 & Y4). rewrite Ey. unfold radd at 2. cbn [fadd].
      cbn [length] in Hi. rewrite nq_S in Hi. pose proof (nq_nonneg (length ys)) as L0.
      assert (Hi1 : (nq i + 1) * (F + 2 * (u * b)) <= K * (F + 2 * (u * b))) by (apply Qmult_le_compat_r; lra).
      assert (Hi2 : (nq i + 1) * (F + 2 * (u * b)) == nq i * (F + 2 * (u * b)) + (F + 2 * (u * b))) by ring.
      destruct (op (s + t y) b) as (s1 & E1 & L1 & G1); try lra. rewrite E1.
      assert (Hi3 : nq (S i) * (T + 2 * (u * b)) == nq i * (T + 2 * (u * b)) + (T + 2 * (u * b))) by (rewrite nq_S; ring).
      assert (Hi4 : nq (S i) * (F + 2 * (u * b)) == nq i * (F + 2 * (u * b)) + (F + 2 * (u * b))) by (rewrite nq_S; ring).
      destruct (IH (S i) s1 (C + c y)) as (s' & E' & R); try lra.
      + rewrite nq_S. lra.
      + intros x Hx. apply Hf. now right.
      + exists s'. split; [exact E'|]. cbv zeta in R |- *.
        assert (EE : (nq (S i) + nq (length ys)) * (T + 2 * (u * b)) == (nq i + nq (S (length ys))) * (T + 2 * (u * b))) by (rewrite !nq_S; ring).
        rewrite EE in R. destruct R as (R1 & R2 & R3 & R4). repeat split; lra.
  Qed.

  (** one summand of the variance *)
  Lemma term_step V x a b x1 a1 b1 D : V == M * M -> (8 # 1) * V <= top -> 0 <= x -> x <= M -> - M <= a -> a <= 2 * M -> - M <= b -> b <= 2 * M ->
    x1 == x -> 0 <= a1 -> a1 <= M -> 0 <= b1 -> b1 <= M -> a1 - D <= a -> a <= a1 + D -> b1 - D <= b -> b <= b1 + D -> 0 <= D ->
    exists t, rmul ieee (rsub ieee (Fin x1) (Fin a)) (rsub ieee (Fin x1) (Fin b)) = Fin t /\
      - ((8 # 1) * V) <= t /\ t <= (8 # 1) * V /\
      (x - a1) * (x - b1) - ((32 # 1) * (u * V) + 3 * (M * D)) <= t /\ t <= (x - a1) * (x - b1) + ((32 # 1) * (u * V) + 3 * (M * D)).
  Proof.
    intros HV Htop Hx1 Hx2 Ha1 Ha2 Hb1 Hb2 Ex A1 A2 B1 B2 D1 D2 D3 D4 HD.
    assert (HMV : 1 * M <= V) by (rewrite HV; apply Qmult_le_compat_r; lra).
    destruct (small M) as [um0 um1]; [lra|]. destruct (small V) as [uv0 uv1]; [lra|].
    assert (EuV : u * V == M * (u * M)) by (rewrite HV; ring).
    unfold rsub, fsub. cbn [fneg fadd].
    destruct (op (x1 + - a) (2 * M)) as (p & Ep & Lp & Gp); try lra. rewrite Ep.
    destruct (op (x1 + - b) (2 * M)) as (q & Eq & Lq & Gq); try lra. rewrite Eq.
    assert (E2 : u * (2 * M) == 2 * (u * M)) by ring. rewrite E2 in Lp, Gp, Lq, Gq.
    destruct (mul_abs p q ((5 # 2) * M) ((5 # 2) * M)) as [P1 P2]; try lra.
    assert (E3 : (5 # 2) * M * ((5 # 2) * M) == (25 # 4) * V) by (rewrite HV; ring). rewrite E3 in P1, P2.
    unfold rmul. cbn [fmul]. destruct (op (p * q) (7 * V)) as (t & Et & Lt & Gt); try lra.
    assert (E4 : u * (7 * V) == 7 * (u * V)) by ring. rewrite E4 in Lt, Gt.
    destruct (mul_abs (p - (x - a)) q (4 * (u * M)) ((5 # 2) * M)) as [S1 S2]; try lra.
    destruct (mul_abs (x - a) (q - (x - b)) (2 * M) (4 * (u * M))) as [S3 S4]; try lra.
    destruct (mul_abs (a1 - a) (x - b) D (2 * M)) as [S5 S6]; try lra.
    destruct (mul_abs (x - a1) (b1 - b) M D) as [S7 S8]; try lra.
    assert (E5 : 4 * (u * M) * ((5 # 2) * M) == 10 * (u * V)) by (rewrite EuV; ring).
    assert (E6 : 2 * M * (4 * (u * M)) == 8 * (u * V)) by (rewrite EuV; ring).
    assert (E7 : D * (2 * M) == 2 * (M * D)) by ring.
    rewrite E5 in S1, S2. rewrite E6 in S3, S4. rewrite E7 in S5, S6.
    assert (EE : p * q == (x - a1) * (x - b1) + (p - (x - a)) * q + (x - a) * (q - (x - b)) + (a1 - a) * (x - b) + (x - a1) * (b1 - b)) by ring.
    exists t. split; [exact Et|]. repeat split; lra.
  Qed.

  (** one step of the variance, the sum being calculated *)
  Lemma var_step V v d s : 1 <= V -> (20 # 1) * V <= top -> (16 # 1) * (K * V) <= top -> - (2 * V) <= v -> v <= 2 * V ->
    d == N - K -> - ((16 # 1) * (K * V)) <= s -> s <= (16 # 1) * (K * V) ->
    exists v', radd ieee (rmul ieee (Fin v) (rdiv ieee (Fin d) (Fin N))) (rdiv ieee (Fin s) (Fin N)) = Fin v' /\
      v * ((N - K) / N) + s / N - (82 # 1) * (u * V) <= v' /\ v' <= v * ((N - K) / N) + s / N + (82 # 1) * (u * V).
  Proof.
    intros HV T1 T2 V1 V2 Ed S1 S2. assert (PN : 0 < N) by lra. destruct (small V) as [uv0 uv1]; [lra|].
    assert (HNV : K * V <= N * V) by (apply Qmult_le_compat_r; lra).
    unfold rdiv at 1 2. rewrite !fdiv_at by auto.
    assert (EW : d / N == (N - K) / N) by (rewrite Ed; reflexivity).
    assert (W : 0 <= (N - K) / N /\ (N - K) / N <= 1) by (split; [apply Qle_shift_div_l; auto; lra|apply Qle_shift_div_r; auto; lra]). destruct W as [W1 W2].
    destruct (op (d / N) 1) as (w & Ew & Lw & Gw); try lra. rewrite Ew.
    unfold rmul. cbn [fmul].
    destruct (mul_abs v w (2 * V) (3 # 2)) as [P1 P2]; try lra.
    destruct (mul_abs v (w - (N - K) / N) (2 * V) (2 * u)) as [P3 P4]; try lra.
    assert (E1 : 2 * V * (3 # 2) == 3 * V) by ring. assert (E2 : 2 * V * (2 * u) == 4 * (u * V)) by ring. rewrite E1 in P1, P2. rewrite E2 in P3, P4.
    destruct (op (v * w) (3 * V)) as (p & Ep & Lp & Gp); try lra. rewrite Ep.
    assert (E3 : u * (3 * V) == 3 * (u * V)) by ring. rewrite E3 in Lp, Gp.
    destruct (div_within s N ((16 # 1) * V) PN) as [Z1 Z2]; try lra.
    destruct (op (s / N) ((16 # 1) * V)) as (z & Ez & Lz & Gz); try lra. rewrite Ez.
    assert (E4 : u * ((16 # 1) * V) == (16 # 1) * (u * V)) by ring. rewrite E4 in Lz, Gz.
    unfold radd. cbn [fadd]. destruct (op (p + z) ((20 # 1) * V)) as (v' & Ev & Lv & Gv); try lra.
    assert (E5 : u * ((20 # 1) * V) == (20 # 1) * (u * V)) by ring. rewrite E5 in Lv, Gv.
    exists v'. split; [exact Ev|].
    assert (EE : v * w == v * ((N - K) / N) + v * (w - (N - K) / N)) by ring. split; lra.
  Qed.
End Steps.

(** *** The statistics as they are *)
Lemma op64 x b : 1 <= b -> b <= B 1000 -> - b <= x -> x <= b ->
  exists y, ieee (Fin x) = Fin y /\ x - 2 * (u64 * b) <= y /\ y <= x + 2 * (u64 * b).
Proof.
  intros H1 H2 H3 H4. exists (rnd64 x). split; [apply ieee_fits, Qabs_Qle_condition; split; lra|].
  assert (He : eta64 <= u64) by (apply by_le; vm_compute; reflexivity).
  pose proof rounding64 as R. destruct (r_u _ _ _ R) as [U0 U1]. pose proof (r_low _ _ _ R) as RL. pose proof (r_high _ _ _ R) as RH. clear R.
  pose proof (rnd64_opp x) as RO.
  assert (Hub : u64 * 1 <= u64 * b) by (rewrite !(Qmult_comm u64); apply Qmult_le_compat_r; lra).
  set (u := u64) in *. set (eta := eta64) in *. clearbody u eta.
  destruct (Qlt_le_dec x 0) as [L|L].
  - assert (N : 0 <= - x) by lra. specialize (RL _ N). specialize (RH _ N). rewrite RO in RL, RH.
    assert (u * (- x) <= u * b) by (rewrite !(Qmult_comm u); apply Qmult_le_compat_r; lra). split; lra.
  - specialize (RL _ L). specialize (RH _ L). assert (u * x <= u * b) by (rewrite !(Qmult_comm u); apply Qmult_le_compat_r; lra). split; lra.
Qed.

Lemma mean_range xs mu M : (forall x, In x xs -> (x <= M)%nat) -> mean_of xs mu -> (xs = [] -> mu == 0) -> 0 <= mu /\ mu <= nq M.
Proof.
  intros Hx Hm H0. pose proof (nq_nonneg M) as PM. destruct xs as [|x xs]; [rewrite H0 by auto; lra|]. set (l := x :: xs) in *.
  assert (HL : 0 < nq (length l)) by (apply nq_pos; cbn; lia).
  assert (HS : nq (list_sum l) <= nq M * nq (length l)).
  { clear - Hx. induction l as [|y l IH]; [change (nq 0 <= nq M * nq 0); change (nq 0) with 0; lra|].
    change (list_sum (y :: l)) with (y + list_sum l)%nat. cbn [length]. rewrite nq_plus, nq_S.
    assert (nq y <= nq M) by (apply nq_mono, Hx; now left). assert (nq (list_sum l) <= nq M * nq (length l)) by (apply IH; intros; apply Hx; now right). lra. }
  unfold mean_of in Hm. fold (nq (length l)) in Hm. change (qn (length l)) with (nq (length l)) in Hm. change (qn (list_sum l)) with (nq (list_sum l)) in Hm.
  assert (E : mu == nq (list_sum l) / nq (length l)) by (rewrite <- Hm; field; lra). rewrite E. pose proof (nq_nonneg (list_sum l)).
  split; [apply Qle_shift_div_l; auto; lra|apply Qle_shift_div_r; auto].
Qed.
Lemma squares_range xs mu M : (forall x, In x xs -> (x <= M)%nat) -> 0 <= mu -> mu <= nq M ->
  0 <= squares mu xs /\ squares mu xs <= nq (length xs) * (nq M * nq M).
Proof.
  intros Hx H1 H2. induction xs as [|x xs IH]; [cbn; split; [lra|change (nq 0) with 0; lra]|].
  destruct IH as [I1 I2]; [intros; apply Hx; now right|]. cbn [squares length]. rewrite nq_S. change (qn x) with (nq x).
  assert (nq x <= nq M) by (apply nq_mono, Hx; now left). pose proof (nq_nonneg x).
  destruct (mul_abs (nq x - mu) (nq x - mu) (nq M) (nq M)) as [A1 A2]; try lra.
  assert (0 <= (nq x - mu) * (nq x - mu)).
  { destruct (Qlt_le_dec (nq x - mu) 0) as [L|L]; [|now apply Qmult_le_0_compat].
    setoid_replace ((nq x - mu) * (nq x - mu)) with ((mu - nq x) * (mu - nq x)) by ring. apply Qmult_le_0_compat; lra. }
  split; lra.
Qed.
Lemma variance_range xs mu sg M : (forall x, In x xs -> (x <= M)%nat) -> 0 <= mu -> mu <= nq M -> variance_of xs mu sg -> (xs = [] -> sg == 0) ->
  0 <= sg /\ sg <= nq M * nq M.
Proof.
  intros Hx H1 H2 Hv H0. destruct xs as [|x xs]; [rewrite H0 by auto; split; [lra|]; pose proof (nq_nonneg M); now apply Qmult_le_0_compat|].
  set (l := x :: xs) in *. destruct (squares_range l mu M Hx H1 H2) as [S1 S2].
  assert (HL : 0 < nq (length l)) by (apply nq_pos; cbn; lia). unfold variance_of in Hv. change (qn (length l)) with (nq (length l)) in Hv.
  assert (E : sg == squares mu l / nq (length l)) by (rewrite <- Hv; field; lra). rewrite E.
  split; [apply Qle_shift_div_l; auto; lra|apply Qle_shift_div_r; auto]. rewrite (Qmult_comm (nq M * nq M)). exact S2.
Qed.
Lemma products_squares a b ys : qsum (map (fun x => (nq x - a) * (nq x - b)) ys) == squares a ys + (a - b) * (nq (list_sum ys) - a * nq (length ys)).
Proof.
  induction ys as [|x ys IH]; [cbn; change (nq 0) with 0; ring|]. cbn [map qsum squares length]. rewrite IH, nq_S.
  change (list_sum (x :: ys)) with (x + list_sum ys)%nat. rewrite nq_plus. change (qn x) with (nq x). ring.
Qed.
Lemma variance_next xs ys mu mu' : mean_of xs mu -> mean_of (xs ++ ys) mu' ->
  squares mu' (xs ++ ys) == squares mu xs + qsum (map (fun x => (nq x - mu) * (nq x - mu')) ys).
Proof.
  unfold mean_of. rewrite app_length, sum_app, !qn_add. change qn with nq. intros H1 H2.
  rewrite squares_app, (squares_shift mu mu' xs), (squares_shift mu mu' ys), products_squares. change qn with nq.
  assert (HX : (mu - mu') * (mu * nq (length xs) - nq (list_sum xs)) == 0) by (rewrite H1; ring).
  assert (HY : (mu - mu') * (mu' * (nq (length xs) + nq (length ys)) - (nq (list_sum xs) + nq (list_sum ys))) == 0) by (rewrite H2; ring).
  lra.
Qed.
Lemma combine k J n0 K X : 0 <= k -> k <= 1 -> 0 <= J -> 0 <= n0 -> 0 <= K -> 0 <= X ->
  (1 - k) * (((256 # 1) * J + (32 # 1) * n0) * X) + k * ((32 # 1) * X + (96 # 1) * (J + 1) * X + (32 # 1) * (K * X)) + (82 # 1) * X <=
  ((256 # 1) * (J + 1) + (32 # 1) * (n0 + K)) * X.
Proof.
  intros. assert (A1 : 0 <= k * (J * X)) by (apply Qmult_le_0_compat; auto; now apply Qmult_le_0_compat).
  assert (A2 : 0 <= k * (n0 * X)) by (apply Qmult_le_0_compat; auto; now apply Qmult_le_0_compat).
  assert (A3 : k * X <= 1 * X) by (apply Qmult_le_compat_r; auto).
  assert (A4 : k * (K * X) <= 1 * (K * X)) by (apply Qmult_le_compat_r; auto; now apply Qmult_le_0_compat).
  lra.
Qed.

(** what holds after [j] outcomes with the counts [xs] *)
Definition follows (M j : nat) (r : stats) (xs : list nat) : Prop :=
  st_progress r = length xs /\ exists mu sg m v, st_mean r = Fin m /\ st_var r = Fin v /\
    mean_of xs mu /\ variance_of xs mu sg /\ (xs = [] -> mu == 0 /\ sg == 0) /\
    around ((32 # 1) * nq j * u64 * nq M) mu m /\
    around (((256 # 1) * nq j + (32 # 1) * nq (length xs)) * u64 * (nq M * nq M)) sg v.

Lemma follows_new M : follows M 0 stats_new [].
Proof.
  split; [reflexivity|]. exists 0, 0, 0, 0. unfold mean_of, variance_of, around. cbn [length]. change (nq 0) with 0.
  repeat split; try reflexivity; set (u := u64); clearbody u; lra.
Qed.

Lemma u64_inv : u64 * inject_Z (2 ^ 53) == 1. Proof. apply by_eq. vm_compute. reflexivity. Qed.
Lemma nq_le_Z n z : (Z.of_nat n <= z)%Z -> nq n <= inject_Z z.
Proof. intros H. unfold nq. now rewrite <- Zle_Qle. Qed.

Lemma follows_more M j k r xs : follows M j r xs -> (j <= k)%nat -> follows M k r xs.
Proof.
  intros (Hp & mu & sg & m & v & Em & Ev & Hm & Hv & H0 & [A1 A2] & [C1 C2]) Hj. split; [exact Hp|]. exists mu, sg, m, v.
  do 5 (split; [assumption|]).
  assert (J : nq j <= nq k) by now apply nq_mono. pose proof (nq_nonneg M) as PM.
  assert (U : 0 <= u64) by (apply by_le; vm_compute; reflexivity).
  assert (D1 : 0 <= u64 * nq M) by now apply Qmult_le_0_compat.
  assert (D2 : 0 <= u64 * (nq M * nq M)) by (apply Qmult_le_0_compat; auto; now apply Qmult_le_0_compat).
  assert (F1 : nq j * (u64 * nq M) <= nq k * (u64 * nq M)) by now apply Qmult_le_compat_r.
  assert (F2 : nq j * (u64 * (nq M * nq M)) <= nq k * (u64 * (nq M * nq M))) by now apply Qmult_le_compat_r.
  unfold around. set (u := u64) in *. clearbody u. repeat split; lra.
Qed.

Lemma follows_add M j r xs c : follows M j r xs -> all_counted c ->
  (forall x, In x (xs ++ ct_found c) -> (x <= M)%nat) -> (1 <= M)%nat ->
  (Z.of_nat (length (xs ++ ct_found c) * M) <= 2 ^ 47)%Z -> (Z.of_nat (S j) <= 2 ^ 44)%Z ->
  follows M (S j) (rstats_add ieee r c) (xs ++ ct_found c).
Proof.
  intros HF Hc Hx HM Htot Hj. unfold all_counted in Hc. unfold rstats_add. set (ys := ct_found c) in *.
  destruct (Nat.ltb_spec 0 (length ys)) as [Hl|Hl].
  2:{ destruct ys as [|y ys]; [|simpl in Hl; lia]. rewrite app_nil_r. simpl in Hc.
      destruct (follows_more M j (S j) r xs HF (le_S _ _ (le_n _))) as (Hp & R). split; cbn [st_progress st_mean st_var]; [lia|exact R]. }
  destruct HF as (Hp & mu & sg & m & v & Em & Ev & Hm & Hv & H0 & [A1 A2] & [C1 C2]).
  cbv zeta. rewrite Hp, <- Hc, Em, Ev.
  set (k := length ys) in *. set (n := (length xs + k)%nat) in *.
  rewrite app_length in Htot. fold k n in Htot.
  assert (Hn : (Z.of_nat n <= 2 ^ 47)%Z) by nia. assert (HMz : (Z.of_nat M <= 2 ^ 47)%Z) by nia.
  assert (Hk : (Z.of_nat k <= 2 ^ 47)%Z) by (unfold n in Hn; lia). assert (HkM : (Z.of_nat (k * M) <= 2 ^ 47)%Z) by (unfold n in Htot; nia).
  (* the numbers as f64 *)
  destruct (whole_fix (nq n) n) as [En' En]; [lia|reflexivity|]. destruct (whole_fix (nq k) k) as [Ek' Ek]; [lia|reflexivity|]. change (rof_nat ieee n) with (ieee (Fin (nq n))). change (rof_nat ieee k) with (ieee (Fin (nq k))). rewrite En', Ek'.
  set (N := rnd64 (nq n)) in *. set (K := rnd64 (nq k)) in *. clearbody N K. clear En' Ek'.
  set (Mq := nq M) in *. set (V := Mq * Mq).
  assert (HM1 : 1 <= Mq) by (apply (nq_mono 1 M); exact HM).
  assert (HK1 : 1 <= K) by (rewrite Ek; apply (nq_mono 1 k); lia).
  assert (HKN : K <= N) by (rewrite Ek, En; apply nq_mono; unfold n; lia).
  assert (HV1 : 1 * Mq <= V) by (apply Qmult_le_compat_r; lra).
  assert (TM : Mq <= B 47) by (apply nq_le_B; lia).
  assert (TKM : K * Mq <= B 47). { rewrite Ek. unfold Mq. assert (nq k * nq M == nq (k * M)) as -> by (unfold nq; rewrite Nat2Z.inj_mul, inject_Z_mult; reflexivity). apply nq_le_B; lia. }
  assert (TB : B 94 == B 47 * B 47) by (change 94%Z with (47 + 47)%Z; apply B_plus).
  assert (TT : (20 # 1) * B 94 <= B 1000) by (apply by_le; vm_compute; reflexivity).
  assert (TV : V <= B 94) by (rewrite TB; unfold V; apply Qmult_le_compat_nonneg; split; lra).
  assert (TKV : K * V <= B 94). { unfold V. rewrite Qmult_assoc, TB. apply Qmult_le_compat_nonneg; split; try lra. apply Qmult_le_0_compat; lra. }
  assert (T47 : (4 # 1) * B 47 <= B 1000) by (apply by_le; vm_compute; reflexivity).
  assert (U0 : 0 <= u64) by (apply by_le; vm_compute; reflexivity). assert (U1 : (1000 # 1) * u64 <= 1) by (apply by_le; vm_compute; reflexivity).
  pose proof u64_inv as UI. pose proof op64 as OP.
  assert (J44 : nq (S j) <= inject_Z (2 ^ 44)) by (apply nq_le_Z; exact Hj).
  assert (N47 : nq (length xs) <= inject_Z (2 ^ 47)) by (apply nq_le_Z; unfold n in Hn; lia).
  assert (K47 : nq k <= inject_Z (2 ^ 47)) by (apply nq_le_Z; lia).
  assert (Z1 : (256 # 1) * inject_Z (2 ^ 44) + (32 # 1) * inject_Z (2 ^ 47) == inject_Z (2 ^ 53)) by (apply by_eq; vm_compute; reflexivity).
  assert (Z2 : (64 # 1) * inject_Z (2 ^ 47) == inject_Z (2 ^ 53)) by (apply by_eq; vm_compute; reflexivity).
  assert (P47 : 0 <= inject_Z (2 ^ 47)) by (apply by_le; vm_compute; reflexivity).
  rewrite nq_S in J44. set (J := nq j) in *. assert (J0 : 0 <= J) by apply nq_nonneg. pose proof (nq_nonneg (length xs)) as X0.
  assert (Ub1 : u64 * ((256 # 1) * (J + 1) + (32 # 1) * nq (length xs)) <= 1)
    by (rewrite <- UI, !(Qmult_comm u64); apply Qmult_le_compat_r; auto; lra).
  assert (Ub2 : u64 * ((64 # 1) * K) <= 1) by (rewrite <- UI, !(Qmult_comm u64); apply Qmult_le_compat_r; auto; lra).
  (* the counts *)
  destruct (whole_sum ys 0 0 (Qeq_refl _)) as (s & Es & Hs).
  { assert (list_sum ys <= k * M)%nat; [|cbn [Nat.add]; nia]. clear - Hx. unfold k. clearbody ys.
    assert (H : forall x, In x ys -> (x <= M)%nat) by (intros; apply Hx, in_app_iff; now right). clear Hx.
    induction ys as [|y ys IH]; [cbn; lia|]. change (list_sum (y :: ys)) with (y + list_sum ys)%nat. cbn [length].
    pose proof (H y (or_introl eq_refl)). assert (list_sum ys <= length ys * M)%nat by (apply IH; intros; apply H; now right). nia. }
  cbn [Nat.add] in Hs.
  assert (HsM : nq (list_sum ys) <= nq k * Mq).
  { clear - Hx. unfold k, Mq. clearbody ys.
    assert (H : forall x, In x ys -> (x <= M)%nat) by (intros; apply Hx, in_app_iff; now right). clear Hx.
    induction ys as [|y ys IH]; [cbn; change (nq 0) with 0; lra|]. change (list_sum (y :: ys)) with (y + list_sum ys)%nat. cbn [length]. rewrite nq_plus, nq_S.
    pose proof (nq_mono _ _ (H y (or_introl eq_refl))). assert (nq (list_sum ys) <= nq (length ys) * nq M) by (apply IH; intros; apply H; now right). lra. }
  pose proof (nq_nonneg (list_sum ys)) as HS0.
  destruct (mean_range xs mu M) as [Mu1 Mu2]; auto; [intros; apply Hx, in_app_iff; now left|apply H0|]. fold Mq in Mu2.
  destruct (variance_range xs mu sg M) as [Sg1 Sg2]; auto; [intros; apply Hx, in_app_iff; now left|apply H0|]. fold Mq V in Sg2, C1, C2.
  (* the new mean *)
  remember u64 as u eqn:Eu. set (top := B 1000) in *. clearbody top.
  assert (D0 : 0 <= u * Mq) by (apply Qmult_le_0_compat; lra).
  assert (UJ : ((256 # 1) * (J + 1)) * (u * Mq) <= Mq).
  { setoid_replace (((256 # 1) * (J + 1)) * (u * Mq)) with ((u * ((256 # 1) * (J + 1))) * Mq) by ring.
    setoid_replace Mq with (1 * Mq) at 2 by ring. apply Qmult_le_compat_r; [|lra].
    assert (0 <= u * ((32 # 1) * nq (length xs))) by (apply Qmult_le_0_compat; lra). lra. }
  assert (EA : (32 # 1) * J * u * Mq == (32 # 1) * (J * (u * Mq))) by ring. rewrite EA in A1, A2.
  assert (JU : 0 <= J * (u * Mq)) by now apply Qmult_le_0_compat.
  destruct (mean_step u top U0 U1 OP K N Mq HK1 HKN HM1 m s) as (m' & Em' & Lm & Gm); try lra; [rewrite Ek; lra|].
  unfold rnext_mean, rsum_up, f0. rewrite Es, Em'.
  set (mu' := mu + (nq (list_sum ys) - nq k * mu) / nq n).
  assert (PN : 0 < nq n) by lra. assert (ENn : nq n == nq (length xs) + nq k) by (unfold n; apply nq_plus).
  assert (Hm' : mean_of (xs ++ ys) mu').
  { unfold mean_of. rewrite app_length, sum_app. fold k n. rewrite qn_add. change qn with nq. unfold mean_of in Hm. change qn with nq in Hm.
    unfold mu'. transitivity (mu * nq n + (nq (list_sum ys) - nq k * mu)); [field; lra|]. rewrite ENn. lra. }
  assert (Hne : xs ++ ys <> []) by (intros F; apply app_eq_nil in F; destruct F as [_ F]; unfold k in Hl; rewrite F in Hl; simpl in Hl; lia).
  destruct (mean_range (xs ++ ys) mu' M) as [Mu1' Mu2']; auto; [intros; contradiction|]. fold Mq in Mu2'.
  set (kap := nq k / nq n). assert (Kap : 0 <= kap /\ kap <= 1) by (split; [apply Qle_shift_div_l; auto; lra|apply Qle_shift_div_r; auto; lra]). destruct Kap as [Kp0 Kp1].
  assert (Near : mu' - (32 # 1) * ((J + 1) * (u * Mq)) <= m' /\ m' <= mu' + (32 # 1) * ((J + 1) * (u * Mq))).
  { assert (Y : m + (s - K * m) / N == mu' + (1 - kap) * (m - mu)).
    { unfold mu', kap. rewrite Hs, Ek, En. field. lra. }
    rewrite Y in Lm, Gm. destruct (mul_abs (1 - kap) (m - mu) 1 ((32 # 1) * (J * (u * Mq)))) as [Y1 Y2]; lra. }
  destruct Near as [Nr1 Nr2].
  (* the new variance *)
  unfold rnext_var. unfold rsub at 1. unfold fsub. cbn [fneg fadd].
  destruct (whole_fix (N + - K) (length xs)) as [Ed' Ed]; [unfold n in Hn; lia|rewrite En, Ek, ENn; ring|]. rewrite Ed'. set (d := rnd64 (N + - K)) in *. clearbody d.
  set (f := fun x => rmul ieee (rsub ieee (rof_nat ieee x) (Fin m)) (rsub ieee (rof_nat ieee x) (Fin m'))).
  unfold rsum_up. rewrite map_map. change (map (fun x => rmul ieee (rsub ieee (rof_nat ieee x) (Fin m)) (rsub ieee (rof_nat ieee x) (Fin m'))) ys) with (map f ys).
  set (D := (32 # 1) * ((J + 1) * (u * Mq))) in *. assert (ED : D == (32 # 1) * ((J + 1) * (u * Mq))) by reflexivity.
  set (T := (32 # 1) * (u * V) + 3 * (Mq * D)).
  assert (HD0 : 0 <= D) by (rewrite ED; lra). clearbody D.
  assert (HKV : 1 * V <= K * V) by (apply Qmult_le_compat_r; lra). assert (UV0 : 0 <= u * V) by (apply Qmult_le_0_compat; lra).
  destruct (sum_step u top U0 U1 OP K f (fun x => match f x with Fin q => q | _ => 0 end) (fun x => (nq x - mu) * (nq x - mu'))
    ((16 # 1) * (K * V)) ((8 # 1) * V) T) with (ys := ys) (i := 0%nat) (s := 0) (C := 0) as (s2 & Es2 & S1 & S2 & S3 & S4).
  { lra. } { lra. } { lra. }
  { assert (Y : u * ((64 # 1) * K) * (K * V) <= 1 * (K * V)) by (apply Qmult_le_compat_r; lra). lra. }
  { change (nq 0) with 0. fold k. lra. }
  { intros x Hin. assert (HxM : (x <= M)%nat) by (apply Hx, in_app_iff; now right).
    assert (XM : nq x <= Mq) by now apply nq_mono. pose proof (nq_nonneg x) as Xp.
    destruct (whole_fix (nq x) x) as [Ex' Ex]; [lia|reflexivity|].
    destruct (term_step u top U0 U1 OP Mq HM1 V (nq x) m m' (rnd64 (nq x)) mu mu' D) as (t & Et & R); try assumption; try reflexivity; try lra.
    assert (Ef : f x = Fin t) by (unfold f, rof_nat, of_nat; fold (nq x); rewrite Ex'; exact Et). rewrite Ef. split; [reflexivity|exact R]. }
  { change (nq 0) with 0. lra. } { change (nq 0) with 0. lra. } { change (nq 0) with 0. lra. } { change (nq 0) with 0. lra. }
  unfold f0. rewrite Es2. fold k in S1, S2. change (nq 0) with 0 in S1, S2.
  set (Qs := qsum (map (fun x => (nq x - mu) * (nq x - mu')) ys)) in *.
  assert (Ev0 : ((256 # 1) * J + (32 # 1) * nq (length xs)) * u * V == ((256 # 1) * J + (32 # 1) * nq (length xs)) * (u * V)) by ring. rewrite Ev0 in C1, C2.
  set (e := ((256 # 1) * J + (32 # 1) * nq (length xs)) * (u * V)) in *.
  assert (He0 : 0 <= e) by (apply Qmult_le_0_compat; lra).
  assert (He : e <= V).
  { unfold e. setoid_replace (((256 # 1) * J + (32 # 1) * nq (length xs)) * (u * V)) with (u * ((256 # 1) * J + (32 # 1) * nq (length xs)) * V) by ring.
    setoid_replace V with (1 * V) at 2 by ring. apply Qmult_le_compat_r; lra. }
  destruct (var_step u top U0 U1 OP K N HK1 HKN V v d s2) as (v' & Ev' & Lv & Gv); try lra.
  rewrite Ev'.
  set (sg' := sg * (1 - kap) + Qs / nq n).
  assert (Hv' : variance_of (xs ++ ys) mu' sg').
  { unfold variance_of. rewrite app_length. fold k n. change qn with nq. rewrite (variance_next xs ys mu mu' Hm Hm'). fold Qs.
    unfold variance_of in Hv. change qn with nq in Hv. rewrite <- Hv. unfold sg', kap. transitivity (sg * (nq n - nq k) + Qs); [field; lra|]. rewrite ENn. ring. }
  split; cbn [st_progress st_mean st_var]; [rewrite app_length; reflexivity|].
  exists mu', sg', m', v'. do 4 (split; [first [reflexivity|assumption]|]). split; [intros; contradiction|].
  rewrite app_length. fold k n. fold Mq V. unfold around. rewrite <- Eu, nq_S. fold J. split.
  - assert (EE : (32 # 1) * (J + 1) * u * Mq == D) by (rewrite ED; ring). rewrite EE. split; assumption.
  - assert (Y : v * ((N - K) / N) + s2 / N == sg' + (1 - kap) * (v - sg) + (s2 - Qs) / nq n).
    { unfold sg', kap. rewrite Ek, En. field. lra. }
    rewrite Y in Lv, Gv. destruct (mul_abs (1 - kap) (v - sg) (1 - kap) e) as [Y1 Y2]; try lra.
    assert (Yt : - (kap * (T + 2 * (u * ((16 # 1) * (K * V))))) <= (s2 - Qs) / nq n /\ (s2 - Qs) / nq n <= kap * (T + 2 * (u * ((16 # 1) * (K * V))))).
    { apply div_within; auto; unfold kap; setoid_replace (nq k / nq n * (T + 2 * (u * ((16 # 1) * (K * V)))) * nq n) with (nq k * (T + 2 * (u * ((16 # 1) * (K * V))))) by (field; lra); lra. }
    destruct Yt as [Y3 Y4].
    assert (ET : T + 2 * (u * ((16 # 1) * (K * V))) == (32 # 1) * (u * V) + (96 # 1) * (J + 1) * (u * V) + (32 # 1) * (nq k * (u * V))).
    { unfold T. rewrite ED, Ek. unfold V. ring. }
    rewrite ET in Y3, Y4.
    pose proof (combine kap J (nq (length xs)) (nq k) (u * V) Kp0 Kp1 J0 X0 (nq_nonneg k) UV0) as CB. fold e in CB.
    assert (EG : ((256 # 1) * (J + 1) + (32 # 1) * nq n) * u * V == ((256 # 1) * (J + 1) + (32 # 1) * (nq (length xs) + nq k)) * (u * V)) by (rewrite ENn; ring).
    rewrite EG. split; lra.
Qed.

Lemma follows_all M cs : Forall all_counted cs -> forall j r xs, follows M j r xs ->
  (forall x, In x (xs ++ all_found cs) -> (x <= M)%nat) -> (1 <= M)%nat ->
  (Z.of_nat (length (xs ++ all_found cs) * M) <= 2 ^ 47)%Z -> (Z.of_nat (j + length cs) <= 2 ^ 44)%Z ->
  follows M (j + length cs) (fold_left (rstats_add ieee) cs r) (xs ++ all_found cs).
Proof.
  induction 1 as [|c cs Hc F IH]; intros j r xs HF Hx HM Ht Hj; cbn [fold_left all_found flat_map length] in *.
  - rewrite app_nil_r, Nat.add_0_r. exact HF.
  - fold (all_found cs) in *. rewrite app_assoc in *. replace (j + S (length cs))%nat with (S j + length cs)%nat in * by lia.
    apply IH; auto. apply follows_add; auto; [intros; apply Hx, in_app_iff; now left| |lia].
    assert (length (xs ++ ct_found c) * M <= length ((xs ++ ct_found c) ++ all_found cs) * M)%nat by (apply Nat.mul_le_mono_r; rewrite (app_length (xs ++ ct_found c)); lia). lia.
Qed.

(** *** Equal counts *)
Lemma ieee_zero q : q == 0 -> exists y, ieee (Fin q) = Fin y /\ y == 0.
Proof. intros H. destruct (whole_fix q 0) as [A C]; [cbn; lia|exact H|]. eauto. Qed.
Lemma ieee_whole q n : (Z.of_nat n <= 2 ^ 53)%Z -> q == nq n -> exists y, ieee (Fin q) = Fin y /\ y == nq n.
Proof. intros H E. destruct (whole_fix q n H E) as [A C]. eauto. Qed.
Lemma sum_zeros (f : nat -> f64) ys : (forall y, In y ys -> exists z, f y = Fin z /\ z == 0) -> forall s, s == 0 ->
  exists s', fold_left (radd ieee) (map f ys) (Fin s) = Fin s' /\ s' == 0.
Proof.
  induction ys as [|y ys IH]; intros Hf s Hs; cbn [map fold_left]; [eauto|].
  destruct (Hf y (or_introl eq_refl)) as (z & -> & Hz). unfold radd at 2. cbn [fadd].
  destruct (ieee_zero (s + z)) as (s1 & -> & H1); [rewrite Hs, Hz; reflexivity|]. apply IH; auto. intros; apply Hf; now right.
Qed.

Definition level_at (a : nat) (r : stats) (n : nat) : Prop :=
  st_progress r = n /\ exists m v, st_mean r = Fin m /\ st_var r = Fin v /\ v == 0 /\ m == (if (n =? 0)%nat then 0 else nq a).

Lemma level_add a r n c : level_at a r n -> all_counted c -> (forall x, In x (ct_found c) -> x = a) ->
  (Z.of_nat (n + length (ct_found c)) <= 2 ^ 53)%Z -> (Z.of_nat a <= 2 ^ 53)%Z -> (Z.of_nat (length (ct_found c) * a) <= 2 ^ 53)%Z ->
  level_at a (rstats_add ieee r c) (n + length (ct_found c)).
Proof.
  intros (Hp & m & v & Em & Ev & Hv & Hm) Hc Hx Hn Ha Hk. unfold all_counted in Hc. unfold rstats_add. rewrite <- Hc, Hp. set (ys := ct_found c) in *.
  destruct (Nat.ltb_spec 0 (length ys)) as [Hl|Hl].
  2:{ replace (length ys) with 0%nat by lia. rewrite Nat.add_0_r. split; cbn [st_progress st_mean st_var]; [reflexivity|]. exists m, v. auto. }
  cbv zeta. split; cbn [st_progress st_mean st_var]; [reflexivity|].
  assert (Hsum : list_sum ys = (length ys * a)%nat).
  { clear - Hx. clearbody ys. induction ys as [|y ys IH]; [reflexivity|]. change (list_sum (y :: ys)) with (y + list_sum ys)%nat.
    rewrite (Hx y (or_introl eq_refl)), IH by (intros; apply Hx; now right). reflexivity. }
  set (k := length ys) in *.
  change (rof_nat ieee (n + k)) with (ieee (Fin (nq (n + k)))). change (rof_nat ieee k) with (ieee (Fin (nq k))).
  destruct (ieee_whole (nq (n + k)) (n + k)) as (N & -> & EN); [lia|reflexivity|]. destruct (ieee_whole (nq k) k) as (K & -> & EK); [lia|reflexivity|].
  assert (PN : 0 < N) by (rewrite EN; apply nq_pos; lia).
  destruct (whole_sum ys 0 0 (Qeq_refl _)) as (s & Es & Hs); [cbn [Nat.add]; rewrite Hsum; exact Hk|]. cbn [Nat.add] in Hs. rewrite Hsum in Hs.
  assert (Eka : nq (k * a) == nq k * nq a) by (unfold nq; rewrite Nat2Z.inj_mul, inject_Z_mult; reflexivity).
  assert (HM : exists m', rnext_mean ieee (Fin N) (Fin K) (st_mean r) ys = Fin m' /\ m' == nq a).
  { unfold rnext_mean, rsum_up, f0. rewrite Es, Em. unfold rmul. cbn [fmul]. destruct (Nat.eqb_spec n 0) as [En0|En0].
    - destruct (ieee_zero (K * m)) as (p & -> & Hp0); [rewrite Hm; ring|]. unfold rsub, fsub. cbn [fneg fadd].
      destruct (ieee_whole (s + - p) (k * a)) as (q & -> & Hq); [lia|rewrite Hs, Hp0; ring|]. unfold rdiv. rewrite fdiv_at by auto.
      destruct (ieee_whole (q / N) a) as (t & -> & Ht); [lia|assert (PK : 0 < nq k) by (apply nq_pos; lia); assert (EN' : N == nq k) by (rewrite EN, En0; reflexivity); rewrite Hq, EN', Eka; field; lra|].
      unfold radd. cbn [fadd]. apply ieee_whole; [lia|]. rewrite Hm, Ht. ring.
    - destruct (ieee_whole (K * m) (k * a)) as (p & -> & Hp0); [lia|rewrite Hm, EK, Eka; reflexivity|]. unfold rsub, fsub. cbn [fneg fadd].
      destruct (ieee_zero (s + - p)) as (q & -> & Hq); [rewrite Hs, Hp0; ring|]. unfold rdiv. rewrite fdiv_at by auto.
      destruct (ieee_zero (q / N)) as (t & -> & Ht); [rewrite Hq; field; lra|].
      unfold radd. cbn [fadd]. apply ieee_whole; [lia|]. rewrite Hm, Ht. ring. }
  destruct HM as (m' & EM & Hm'). rewrite EM. rewrite Em, Ev.
  assert (HV : exists v', rnext_var ieee (Fin N) (Fin K) (Fin m) (Fin m') (Fin v) ys = Fin v' /\ v' == 0).
  { unfold rnext_var, rsum_up, f0. rewrite map_map.
    destruct (sum_zeros (fun x => rmul ieee (rsub ieee (rof_nat ieee x) (Fin m)) (rsub ieee (rof_nat ieee x) (Fin m'))) ys) with (s := 0) as (z & -> & Hz); [|reflexivity|].
    - intros y Hy. rewrite (Hx y Hy). change (rof_nat ieee a) with (ieee (Fin (nq a))). destruct (ieee_whole (nq a) a) as (x & -> & Ex); [lia|reflexivity|].
      unfold rsub, fsub. cbn [fneg fadd]. destruct (ieee_zero (x + - m')) as (z & -> & Hz); [rewrite Ex, Hm'; ring|].
      assert (exists w, ieee (Fin (x + - m)) = Fin w) as (w & ->).
      { destruct (Nat.eqb_spec n 0); [destruct (ieee_whole (x + - m) a) as (w & -> & _); [lia|rewrite Ex, Hm; ring|eauto]|].
        destruct (ieee_zero (x + - m)) as (w & -> & _); [rewrite Ex, Hm; ring|eauto]. }
      unfold rmul. cbn [fmul]. apply ieee_zero. rewrite Hz. ring.
    - unfold rsub, fsub. cbn [fneg fadd]. destruct (ieee_whole (N + - K) n) as (d & -> & Hd); [lia|rewrite EN, EK, nq_plus; ring|].
      unfold rdiv. rewrite !fdiv_at by auto.
      assert (exists w, ieee (Fin (d / N)) = Fin w) as (w & ->).
      { destruct (op64 (d / N) 1) as (w & -> & _); [lra|apply by_le; vm_compute; reflexivity| | |eauto].
        - assert (0 <= d / N); [|lra]. apply Qle_shift_div_l; auto. rewrite Hd. pose proof (nq_nonneg n). lra.
        - apply Qle_shift_div_r; auto. rewrite Hd, EN, nq_plus. pose proof (nq_nonneg k). lra. }
      destruct (ieee_zero (z / N)) as (z' & -> & Hz'); [rewrite Hz; field; lra|]. unfold rmul. cbn [fmul].
      destruct (ieee_zero (v * w)) as (y & -> & Hy); [rewrite Hv; ring|]. unfold radd. cbn [fadd]. apply ieee_zero. rewrite Hy, Hz'. ring. }
  destruct HV as (v' & EV & Hv'). rewrite EV. exists m', v'. split; [reflexivity|]. split; [reflexivity|]. split; [exact Hv'|].
  destruct (Nat.eqb_spec (n + k) 0); [lia|exact Hm'].
Qed.
Lemma level_all a cs : Forall all_counted cs -> forall r n, level_at a r n -> (forall x, In x (all_found cs) -> x = a) ->
  (Z.of_nat (n + length (all_found cs)) <= 2 ^ 53)%Z -> (Z.of_nat a <= 2 ^ 53)%Z -> (Z.of_nat (length (all_found cs) * a) <= 2 ^ 53)%Z ->
  level_at a (fold_left (rstats_add ieee) cs r) (n + length (all_found cs)).
Proof.
  induction 1 as [|c cs Hc F IH]; intros r n HL Hx Hn Ha Hk; cbn [fold_left all_found flat_map] in *; [now rewrite Nat.add_0_r|].
  fold (all_found cs) in *. rewrite app_length in *. rewrite Nat.add_assoc in *. apply IH; auto.
  - apply level_add; auto; [intros; apply Hx, in_app_iff; now left|lia|nia].
  - intros; apply Hx, in_app_iff; now right.
  - nia.
Qed.
