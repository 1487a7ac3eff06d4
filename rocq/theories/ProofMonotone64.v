(** Operations of binary64 respect the order *)
From Coq Require Import String List Bool Arith ZArith QArith Qabs Qround Lia Lqa.
From Verif Require Import Base F64 Lib ModelRounded ModelRoundedHeap ModelRoundedMetrics SpecRounded SpecRoundedHeap SpecRoundedMetrics
  ProofMetrics ProofRounded ProofRounding64 ProofCompare64 ProofFactor64 ProofRoundedMetrics.
Import ListNotations.
Open Scope Q_scope.

Definition fle (x y : f64) : Prop := fleb x y = true.
Lemma fle_fin a b : fle (Fin a) (Fin b) <-> a <= b.
Proof. unfold fle, fleb, fcmp. destruct (Qcompare_spec a b); split; intros; try discriminate; auto; lra. Qed.
Lemma fle_refl x : x <> NaN -> fle x x.
Proof. destruct x; intros H; try reflexivity; [apply fle_fin; lra|congruence]. Qed.
Lemma fle_trans x y z : fle x y -> fle y z -> fle x z.
Proof.
  destruct x, y, z; try (intros; discriminate); try reflexivity; auto.
  rewrite !fle_fin. lra.
Qed.
Lemma fle_0 x : fle f0 x -> (exists q, x = Fin q /\ 0 <= q) \/ x = PInf.
Proof. destruct x; intros H; try discriminate; auto. left. exists q. split; auto. now apply fle_fin. Qed.
Lemma fle_inf x : x <> NaN -> fle x PInf.
Proof. destruct x; intros; try reflexivity. congruence. Qed.

(** rounding *)
Lemma ieee_cases q : ieee (Fin q) = Fin (rnd64 q) \/ (ieee (Fin q) = PInf /\ top64 < rnd64 q) \/ (ieee (Fin q) = NInf /\ rnd64 q < - top64).
Proof.
  unfold ieee, ofin. destruct (Qle_bool (rnd64 q) top64) eqn:E.
  - destruct (Qle_bool (- top64) (rnd64 q)) eqn:F; auto. right. right. split; auto. now apply by_lt.
  - right. left. split; auto. now apply by_lt.
Qed.
Lemma top64_pos : 0 < top64. Proof. apply by_lt. vm_compute. reflexivity. Qed.
Lemma ieee_mono x y : fle x y -> fle (ieee x) (ieee y).
Proof.
  destruct x as [a| | |], y as [b| | |]; intros H; try discriminate; try reflexivity.
  - apply fle_fin in H. apply mono64 in H. pose proof top64_pos as T. unfold ieee, ofin.
    destruct (Qle_bool (rnd64 a) top64) eqn:E1; destruct (Qle_bool (rnd64 b) top64) eqn:E2;
      destruct (Qle_bool (- top64) (rnd64 a)) eqn:E3; destruct (Qle_bool (- top64) (rnd64 b)) eqn:E4;
      rewrite ?Qle_bool_iff in *; try (apply by_lt in E1); try (apply by_lt in E2); try (apply by_lt in E3); try (apply by_lt in E4);
      try reflexivity; try (apply fle_fin; exact H); exfalso; lra.
  - apply fle_inf. destruct (ieee_cases a) as [-> | [[-> _] | [-> _]]]; discriminate.
  - change (ieee NInf) with NInf. destruct (ieee_cases b) as [-> | [[-> _] | [-> _]]]; reflexivity.
Qed.
Lemma ieee_zero : ieee f0 = f0. Proof. reflexivity. Qed.
Lemma ieee_nonneg x : fle f0 x -> fle f0 (ieee x).
Proof. intros H. rewrite <- ieee_zero. now apply ieee_mono. Qed.

(** exact operations *)
Lemma fadd_mono_l x y c : fle x y -> c <> NaN -> fle (Fin 0) x -> fle (Fin 0) c -> fle (fadd x c) (fadd y c).
Proof.
  destruct x as [a| | |], y as [b| | |], c as [c| | |]; intros H K L M; try discriminate; try reflexivity; try congruence.
  apply fle_fin. apply fle_fin in H. lra.
Qed.
Lemma fadd_nonneg x y : fle f0 x -> fle f0 y -> fle f0 (fadd x y).
Proof.
  intros H K. apply fle_0 in H, K. destruct H as [(a & -> & Ha)| ->], K as [(b & -> & Hb)| ->]; try reflexivity.
  apply fle_fin. lra.
Qed.
Lemma div_le a b d : 0 < d -> a <= b -> a / d <= b / d.
Proof. intros H K. apply Qmult_le_compat_r; auto. apply Qlt_le_weak, Qinv_lt_0_compat; auto. Qed.
Lemma fdiv_mono x y d : 0 < d -> fle x y -> fle (fdiv x (Fin d)) (fdiv y (Fin d)).
Proof.
  intros Hd H. destruct x as [a| | |], y as [b| | |]; try discriminate; rewrite ?fdiv_fin by lra; unfold fdiv; rewrite ?qsign_pos by auto; try reflexivity.
  apply fle_fin. apply fle_fin in H. now apply div_le.
Qed.
Lemma fmul_mono x y d : 0 < d -> fle x y -> fle (fmul x (Fin d)) (fmul y (Fin d)).
Proof.
  intros Hd H. destruct x as [a| | |], y as [b| | |]; try discriminate; cbn [fmul fsign inf_signed]; rewrite ?qsign_pos by auto; try reflexivity.
  apply fle_fin. apply fle_fin in H. apply Qmult_le_compat_r; lra.
Qed.
Lemma qround_mono a b : a <= b -> (qround a <= qround b)%Z.
Proof.
  intros H. unfold qround. destruct (Qle_bool 0 a) eqn:E1; destruct (Qle_bool 0 b) eqn:E2;
    rewrite ?Qle_bool_iff in *; try (apply by_lt in E1); try (apply by_lt in E2).
  - apply Qfloor_resp_le. lra.
  - lra.
  - assert (0 <= Qfloor (b + (1 # 2)))%Z by (change 0%Z with (Qfloor 0); apply Qfloor_resp_le; lra).
    assert (0 <= Qfloor (- a + (1 # 2)))%Z by (change 0%Z with (Qfloor 0); apply Qfloor_resp_le; lra). lia.
  - assert (Qfloor (- b + (1 # 2)) <= Qfloor (- a + (1 # 2)))%Z by (apply Qfloor_resp_le; lra). lia.
Qed.
Lemma fround_mono x y : fle x y -> fle (fround x) (fround y).
Proof.
  destruct x as [a| | |], y as [b| | |]; intros H; try discriminate; try reflexivity.
  apply fle_fin. apply fle_fin in H. rewrite <- Zle_Qle. now apply qround_mono.
Qed.

(** approximate comparison with 0 or anything below *)
Lemma rapprox_mono x y : fle x y -> fle (rapprox ieee x) (rapprox ieee y).
Proof.
  intros H. unfold rapprox. rewrite (rABS_64 ieee ieee_64). unfold rmul, rdiv. pose proof abs64_pos.
  apply ieee_mono, fmul_mono; auto. apply fround_mono, ieee_mono, fdiv_mono; auto.
Qed.
Lemma rapprox_zero : rapprox ieee f0 = Fin 0. Proof. vm_compute. reflexivity. Qed.
Lemma fabs_nonneg_mono x y : fle f0 x -> fle x y -> fle (fabs x) (fabs y).
Proof.
  intros H K. pose proof (fle_trans _ _ _ H K) as L. apply fle_0 in H, L.
  destruct H as [(a & -> & Ha)| ->], L as [(b & -> & Hb)| ->]; try reflexivity; try discriminate.
  cbn [fabs]. apply fle_fin. apply fle_fin in K. rewrite !Qabs_pos by auto. exact K.
Qed.
Lemma rapprox_eq_mono x y c : fle (Fin c) x -> fle x y -> rapprox_eq ieee y (Fin c) = true -> rapprox_eq ieee x (Fin c) = true.
Proof.
  intros H K. unfold rapprox_eq. intros L. assert (Hsub : fle f0 (fsub x (Fin c)) /\ fle (fsub x (Fin c)) (fsub y (Fin c))).
  { clear L. destruct x as [a| | |], y as [b| | |]; try discriminate; unfold fsub; cbn [fneg fadd]; split; try reflexivity;
      try (apply fle_fin in H); try (apply fle_fin in K); apply fle_fin; lra. }
  destruct Hsub as [S0 S1]. unfold rsub in *.
  assert (F0 : fle f0 (rapprox ieee (ieee (fsub x (Fin c))))).
  { unfold f0. rewrite <- rapprox_zero. apply rapprox_mono. now apply ieee_nonneg. }
  assert (G : fle (fabs (rapprox ieee (ieee (fsub x (Fin c))))) (fabs (rapprox ieee (ieee (fsub y (Fin c)))))).
  { apply fabs_nonneg_mono; auto. now apply rapprox_mono, ieee_mono. }
  exact (fle_trans _ _ _ G L).
Qed.

(** [rclamp] *)
Lemma rclamp_mono x y : fle f0 x -> fle x y -> fle (rclamp ieee x) (rclamp ieee y).
Proof.
  intros H K. unfold rclamp. destruct (rapprox_eq ieee x f0) eqn:Ex; destruct (rapprox_eq ieee y f0) eqn:Ey; auto.
  - rewrite (rABS_64 ieee ieee_64). apply fle_fin. lra.
  - rewrite (rABS_64 ieee ieee_64). pose proof (fle_trans _ _ _ H K) as L. apply fle_0 in L. destruct L as [(b & -> & Hb)| ->]; [|reflexivity].
    apply fle_fin. pose proof (approx_false b Ey Hb). assert (abs64 <= 7 # 5000000) by (apply by_le; vm_compute; reflexivity). lra.
  - exfalso. unfold f0 in *. rewrite (rapprox_eq_mono x y 0 H K Ey) in Ex. discriminate.
Qed.
Lemma radd_sum_nonneg l : forall a, fle f0 a -> Forall (fle f0) l -> fle f0 (fold_left (radd ieee) l a).
Proof.
  induction l as [|x l IH]; intros a Ha Hl; simpl; auto. inversion Hl; subst. apply IH; auto.
  unfold radd. apply ieee_nonneg. now apply fadd_nonneg.
Qed.

(** dividing by a mean *)
Lemma by_mean l n d x y : (0 < n)%nat -> (Z.of_nat n <= 2 ^ 53)%Z -> Forall (fle f0) l ->
  d = rdiv ieee (fold_left (radd ieee) l f0) (rof_nat ieee n) -> rapprox_eq ieee d f0 = false ->
  (exists a, x = Fin a) -> fle f0 x -> (exists b, y = Fin b) -> fle x y ->
  fle f0 (rdiv ieee x d) /\ fle (rdiv ieee x d) (rdiv ieee y d).
Proof.
  intros Hn Hb Hl -> Ha [a ->] H0 [b ->] Hxy. unfold rof_nat in *. destruct (whole_exact n Hb) as (r & Er & Hr). rewrite Er in *.
  assert (Pn : 0 < r) by (rewrite Hr; unfold nq; change 0 with (inject_Z 0); rewrite <- Zlt_Qlt; lia).
  pose proof (radd_sum_nonneg l f0 (fle_refl f0 ltac:(discriminate)) Hl) as Hs. set (s := fold_left (radd ieee) l f0) in *.
  assert (Hd : fle f0 (rdiv ieee s (Fin r))).
  { unfold rdiv. apply ieee_nonneg. apply fle_trans with (fdiv f0 (Fin r)); [|now apply fdiv_mono].
    unfold f0. rewrite fdiv_fin by lra. apply fle_fin. apply Qle_shift_div_l; lra. }
  set (d := rdiv ieee s (Fin r)) in *. apply fle_0 in Hd. destruct Hd as [(m & Em & Hm)|Em]; rewrite Em in *.
  - pose proof (approx_false m Ha Hm). unfold rdiv. split; [|apply ieee_mono, fdiv_mono; auto; lra].
    apply ieee_nonneg. rewrite fdiv_fin by lra. apply fle_fin. apply fle_fin in H0. apply Qle_shift_div_l; lra.
  - split; reflexivity.
Qed.
