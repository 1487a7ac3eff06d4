(** Comparing costs in binary64 *)
From Coq Require Import String List Bool Arith ZArith QArith Qabs Qround Lia Lqa.
From Verif Require Import Base F64 Lib ModelRounded ModelRoundedHeap SpecRounded SpecRouting SpecRoundedHeap ProofRounded ExamplesRounded ProofRounding64 ProofOverflow PropsRounded PropsOverflow.
Import ListNotations.
Open Scope Q_scope.

(** binary64, with or without overflow *)
Definition of64 (ar : f64 -> f64) : Prop := ar = rfin rnd64 \/ ar = ieee.

Definition abs64 : Q := rnd64 ABSQ.
(** numbers of binary64 around one and a half times the accuracy *)
Definition over15 : Q := Eval vm_compute in rnd64 ((3 # 2) * abs64 * (1 + Qpower (2 # 1) (- (51)))).
Definition under15 : Q := Eval vm_compute in rnd64 ((3 # 2) * abs64 * (1 - Qpower (2 # 1) (- (51)))).

Lemma by_le a b : Qle_bool a b = true -> a <= b. Proof. apply Qle_bool_iff. Qed.
Lemma by_eq a b : Qeq_bool a b = true -> a == b. Proof. apply Qeq_bool_iff. Qed.
Lemma by_lt a b : Qle_bool b a = false -> a < b.
Proof. intros H. apply Qnot_le_lt. intros K. apply Qle_bool_iff in K. congruence. Qed.

Lemma abs64_pos : 0 < abs64. Proof. apply by_lt. vm_compute. reflexivity. Qed.
Lemma over15_above : (3 # 2) * abs64 <= over15. Proof. apply by_le. vm_compute. reflexivity. Qed.
Lemma over15_below : over15 <= accuracy64. Proof. apply by_le. vm_compute. reflexivity. Qed.
Lemma under15_above : (3 # 2000000) - Qpower (2 # 1) (- (70)) <= under15. Proof. apply by_le. vm_compute. reflexivity. Qed.
Lemma over15_fix : rnd64 over15 == over15. Proof. apply by_eq. vm_compute. reflexivity. Qed.
Lemma under15_fix : rnd64 under15 == under15. Proof. apply by_eq. vm_compute. reflexivity. Qed.
Lemma under15_quot : rnd64 (under15 / abs64) < 3 # 2. Proof. apply by_lt. vm_compute. reflexivity. Qed.
Lemma half3_fix : rnd64 (3 # 2) == 3 # 2. Proof. apply by_eq. vm_compute. reflexivity. Qed.
Lemma twice_fix : rnd64 (2 * abs64) == 2 * abs64. Proof. apply by_eq. vm_compute. reflexivity. Qed.
Lemma once_fix : rnd64 abs64 == abs64. Proof. apply by_eq. vm_compute. reflexivity. Qed.

Lemma mono64 x y : x <= y -> rnd64 x <= rnd64 y. Proof. apply (r_mono _ _ _ rounding64). Qed.
Lemma mono64_at x y : x <= y -> rnd64 x == x -> x <= rnd64 y.
Proof. intros H E. pose proof (mono64 _ _ H). lra. Qed.

Lemma of64_pos ar q : of64 ar -> 0 < q -> ar (Fin q) = Fin (rnd64 q) \/ ar (Fin q) = PInf.
Proof.
  intros [-> | ->] Hq; [left; reflexivity|]. unfold ieee, ofin. pose proof (rnd_nonneg _ _ _ rounding64 q) as Hn.
  assert (H : 0 <= q) by lra. specialize (Hn H). destruct (Qle_bool (rnd64 q) top64); [|auto].
  replace (Qle_bool (- top64) (rnd64 q)) with true; [auto|]. symmetry. apply Qle_bool_iff.
  assert (- top64 <= 0) by (vm_compute; discriminate). lra.
Qed.
Lemma of64_neg ar q : of64 ar -> q < 0 -> ar (Fin q) = Fin (rnd64 q) \/ ar (Fin q) = NInf.
Proof.
  intros [-> | ->] Hq; [left; reflexivity|]. unfold ieee, ofin. pose proof (rnd_nonneg _ _ _ rounding64 (- q)) as Hn.
  assert (H : 0 <= - q) by lra. specialize (Hn H). rewrite rnd64_opp in Hn.
  replace (Qle_bool (rnd64 q) top64) with true.
  - destruct (Qle_bool _ _); auto.
  - symmetry. apply Qle_bool_iff. assert (0 <= top64) by (vm_compute; discriminate). lra.
Qed.
Lemma of64_small ar q : of64 ar -> Qabs q <= 1 -> ar (Fin q) = Fin (rnd64 q).
Proof.
  intros [-> | ->] Hq; [reflexivity|]. apply Qabs_Qle_condition in Hq. destruct Hq as [H1 H2].
  assert (E : rnd64 1 == 1) by (apply by_eq; vm_compute; reflexivity).
  pose proof (mono64 _ _ H1) as M1. pose proof (mono64 _ _ H2) as M2. rewrite rnd64_opp in M1.
  assert (T : 1 <= top64) by (vm_compute; discriminate).
  unfold ieee, ofin. replace (Qle_bool (rnd64 q) top64) with true; [|symmetry; apply Qle_bool_iff; lra].
  replace (Qle_bool (- top64) (rnd64 q)) with true; [|symmetry; apply Qle_bool_iff; lra]. reflexivity.
Qed.
Lemma rABS_64 ar : of64 ar -> rABS ar = Fin abs64.
Proof. intros H. unfold rABS, F64_ABS. apply of64_small; [exact H|]. vm_compute. discriminate. Qed.

Lemma abs64_sign : qsign abs64 = Gt. Proof. vm_compute. reflexivity. Qed.
Lemma div_abs a : fdiv (Fin a) (Fin abs64) = Fin (a / abs64).
Proof. unfold fdiv. rewrite abs64_sign. reflexivity. Qed.

(** far from zero *)
Lemma rapprox_big ar d : of64 ar -> over15 <= d -> fleb (fabs (rapprox ar (ar (Fin d)))) (rABS ar) = false.
Proof.
  intros H Hd. rewrite (rABS_64 ar H). pose proof abs64_pos as Ap. pose proof over15_above as Oa.
  assert (Inf : ar PInf = PInf) by (destruct H as [-> | ->]; reflexivity).
  assert (Fi : fmul PInf (Fin abs64) = PInf) by (cbn [fmul fsign]; rewrite abs64_sign; reflexivity).
  assert (Di : fdiv PInf (Fin abs64) = PInf) by (cbn [fdiv]; rewrite abs64_sign; reflexivity).
  unfold rapprox, rdiv, rmul. rewrite (rABS_64 ar H).
  destruct (of64_pos ar d H) as [-> | ->]; [lra| |rewrite Di, Inf; cbn [fround]; rewrite Fi, Inf; reflexivity].
  pose proof (mono64_at _ _ Hd over15_fix) as H1. rewrite div_abs.
  assert (H2 : (3 # 2) <= rnd64 d / abs64) by (apply Qle_shift_div_l; lra).
  destruct (of64_pos ar (rnd64 d / abs64) H) as [-> | ->]; [lra| |cbn [fround]; rewrite Fi, Inf; reflexivity].
  pose proof (mono64_at _ _ H2 half3_fix) as H3. cbn [fround fmul].
  assert (H4 : (2 <= qround (rnd64 (rnd64 d / abs64)))%Z).
  { unfold qround. replace (Qle_bool 0 (rnd64 (rnd64 d / abs64))) with true by (symmetry; apply Qle_bool_iff; lra).
    change 2%Z with (Qfloor 2). apply Qfloor_resp_le. lra. }
  set (z := qround (rnd64 (rnd64 d / abs64))) in *. rewrite Zle_Qle in H4. change (inject_Z 2) with 2 in H4.
  assert (H5 : 2 * abs64 <= inject_Z z * abs64) by (apply Qmult_le_compat_r; lra).
  destruct (of64_pos ar (inject_Z z * abs64) H) as [-> | ->]; [lra| |reflexivity].
  pose proof (mono64_at _ _ H5 twice_fix) as H6. cbn [fabs]. unfold fleb, fcmp.
  assert (K : abs64 < Qabs (rnd64 (inject_Z z * abs64))) by (rewrite Qabs_pos; lra).
  apply Qgt_alt in K. rewrite K. reflexivity.
Qed.
Lemma rapprox_big_neg ar d : of64 ar -> d <= - over15 -> fleb (fabs (rapprox ar (ar (Fin d)))) (rABS ar) = false.
Proof.
  intros H Hd. rewrite (rABS_64 ar H). pose proof abs64_pos as Ap. pose proof over15_above as Oa.
  assert (Inf : ar NInf = NInf) by (destruct H as [-> | ->]; reflexivity).
  assert (Fi : fmul NInf (Fin abs64) = NInf) by (cbn [fmul fsign]; rewrite abs64_sign; reflexivity).
  assert (Di : fdiv NInf (Fin abs64) = NInf) by (cbn [fdiv]; rewrite abs64_sign; reflexivity).
  unfold rapprox, rdiv, rmul. rewrite (rABS_64 ar H).
  destruct (of64_neg ar d H) as [-> | ->]; [lra| |rewrite Di, Inf; cbn [fround]; rewrite Fi, Inf; reflexivity].
  pose proof (mono64 _ _ Hd) as H1. rewrite rnd64_opp, over15_fix in H1. rewrite div_abs.
  assert (H2 : rnd64 d / abs64 <= - (3 # 2)) by (apply Qle_shift_div_r; lra).
  destruct (of64_neg ar (rnd64 d / abs64) H) as [-> | ->]; [lra| |cbn [fround]; rewrite Fi, Inf; reflexivity].
  pose proof (mono64 _ _ H2) as H3. rewrite rnd64_opp, half3_fix in H3. cbn [fround fmul].
  assert (H4 : (qround (rnd64 (rnd64 d / abs64)) <= - 2)%Z).
  { unfold qround. replace (Qle_bool 0 (rnd64 (rnd64 d / abs64))) with false
      by (symmetry; apply Bool.not_true_iff_false; intros K; apply Qle_bool_iff in K; lra).
    assert (2 <= Qfloor (- rnd64 (rnd64 d / abs64) + (1 # 2)))%Z; [|lia]. change 2%Z with (Qfloor 2). apply Qfloor_resp_le. lra. }
  set (z := qround (rnd64 (rnd64 d / abs64))) in *. rewrite Zle_Qle in H4. change (inject_Z (-2)) with (- (2)) in H4.
  assert (H5 : inject_Z z * abs64 <= - (2) * abs64) by (apply Qmult_le_compat_r; lra).
  assert (H5' : inject_Z z * abs64 <= - (2 * abs64)) by lra.
  destruct (of64_neg ar (inject_Z z * abs64) H) as [-> | ->]; [lra| |reflexivity].
  pose proof (mono64 _ _ H5') as H6. rewrite rnd64_opp, twice_fix in H6. cbn [fabs]. unfold fleb, fcmp.
  assert (K : abs64 < Qabs (rnd64 (inject_Z z * abs64))) by (rewrite Qabs_neg; lra).
  apply Qgt_alt in K. rewrite K. reflexivity.
Qed.

(** close to zero *)
Lemma rapprox_little ar d : of64 ar -> Qabs d <= under15 -> fleb (fabs (rapprox ar (ar (Fin d)))) (rABS ar) = true.
Proof.
  intros H Hd. rewrite (rABS_64 ar H). pose proof abs64_pos as Ap.
  assert (U1 : under15 <= 1) by (vm_compute; discriminate).
  unfold rapprox, rdiv, rmul. rewrite (rABS_64 ar H). rewrite (of64_small ar d H) by lra. rewrite div_abs.
  apply Qabs_Qle_condition in Hd. destruct Hd as [L U].
  apply mono64 in L. apply mono64 in U. rewrite rnd64_opp, under15_fix in L. rewrite under15_fix in U.
  assert (L2 : - (under15 / abs64) <= rnd64 d / abs64).
  { setoid_replace (- (under15 / abs64)) with (- under15 / abs64) by (field; lra).
    unfold Qdiv. apply Qmult_le_compat_r; [exact L|]. apply Qinv_le_0_compat. lra. }
  assert (U2 : rnd64 d / abs64 <= under15 / abs64).
  { unfold Qdiv. apply Qmult_le_compat_r; [exact U|]. apply Qinv_le_0_compat. lra. }
  pose proof under15_quot as Uq. apply mono64 in L2. apply mono64 in U2. rewrite rnd64_opp in L2.
  set (u := rnd64 (under15 / abs64)) in *.
  assert (E : ar (Fin (rnd64 d / abs64)) = Fin (rnd64 (rnd64 d / abs64))).
  { destruct H as [-> | ->]; [reflexivity|]. unfold ieee, ofin.
    assert (T : 2 <= top64) by (vm_compute; discriminate).
    replace (Qle_bool (rnd64 (rnd64 d / abs64)) top64) with true; [|symmetry; apply Qle_bool_iff; lra].
    replace (Qle_bool (- top64) (rnd64 (rnd64 d / abs64))) with true; [|symmetry; apply Qle_bool_iff; lra]. reflexivity. }
  rewrite E. cbn [fround fmul]. set (r := rnd64 (rnd64 d / abs64)) in *.
  assert (Hz : (-1 <= qround r <= 1)%Z).
  { unfold qround. destruct (Qle_bool 0 r) eqn:Er.
    - apply Qle_bool_iff in Er. split.
      + apply Z.le_trans with 0%Z; [lia|]. change 0%Z with (Qfloor 0). apply Qfloor_resp_le. lra.
      + apply Z.lt_succ_r. rewrite Zlt_Qlt. pose proof (Qfloor_le (r + (1 # 2))). change (inject_Z (Z.succ 1)) with 2. lra.
    - assert (K : r < 0). { apply by_lt. exact Er. } split.
      + assert (Qfloor (- r + (1 # 2)) <= 1)%Z; [|lia]. apply Z.lt_succ_r. rewrite Zlt_Qlt. pose proof (Qfloor_le (- r + (1 # 2))). change (inject_Z (Z.succ 1)) with 2. lra.
      + assert (0 <= Qfloor (- r + (1 # 2)))%Z; [|lia]. change 0%Z with (Qfloor 0). apply Qfloor_resp_le. lra. }
  set (z := qround r) in *. assert (Hz' : z = (-1)%Z \/ z = 0%Z \/ z = 1%Z) by lia.
  assert (Hs : forall q, ar (Fin q) = Fin (rnd64 q) -> Qabs (rnd64 q) <= abs64 -> fleb (fabs (ar (Fin q))) (Fin abs64) = true).
  { intros q -> K. cbn [fabs]. unfold fleb, fcmp. destruct (Qcompare_spec (Qabs (rnd64 q)) abs64); auto. lra. }
  destruct Hz' as [-> | [-> | ->]]; apply Hs; try (apply of64_small; [exact H|]); vm_compute; discriminate.
Qed.

Lemma rapprox_eq_64 ar a b : of64 ar ->
  (Qabs (a - b) <= (3 # 2000000) - Qpower (2 # 1) (- (70)) -> rapprox_eq ar (Fin a) (Fin b) = true) /\
  (accuracy64 <= Qabs (a - b) -> rapprox_eq ar (Fin a) (Fin b) = false).
Proof.
  intros H. unfold rapprox_eq, rsub, fsub. cbn [fneg fadd]. pose proof under15_above. pose proof over15_below. split; intros K.
  - apply rapprox_little; [exact H|]. change (a + - b) with (a - b). lra.
  - destruct (Qlt_le_dec (a - b) 0) as [S|S].
    + rewrite Qabs_neg in K by lra. apply rapprox_big_neg; [exact H|]. lra.
    + rewrite Qabs_pos in K by lra. apply rapprox_big; [exact H|]. lra.
Qed.
