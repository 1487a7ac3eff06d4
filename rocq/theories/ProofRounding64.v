(** Rounding to nearest of binary64 is a rounding as in SpecRounded.v *)
From Coq Require Import List Bool Arith ZArith QArith Qround Qpower Qabs Lqa Lia.
From Verif Require Import ModelRounded SpecRounded.
Open Scope Z_scope.

Definition B (k : Z) : Q := Qpower (2 # 1) k.
Lemma two_0 : ~ (2 # 1 == 0)%Q.
Proof. discriminate. Qed.
Lemma B_plus a b : (B (a + b) == B a * B b)%Q.
Proof. apply Qpower_plus. exact two_0. Qed.
Lemma B_pos k : (0 < B k)%Q.
Proof. unfold B. apply Qpower_0_lt. reflexivity. Qed.
Lemma B_0 : (B 0 == 1)%Q.
Proof. reflexivity. Qed.
Lemma B_inv k : (B k * B (- k) == 1)%Q.
Proof. rewrite <- B_plus, Z.add_opp_diag_r. reflexivity. Qed.
Lemma B_nat k : 0 <= k -> (B k == inject_Z (2 ^ k))%Q.
Proof.
  intros H. unfold B. change (2 # 1)%Q with (inject_Z 2). symmetry. now apply Zpower_Qpower.
Qed.
Lemma B_succ k : (B (k + 1) == 2 * B k)%Q.
Proof. rewrite B_plus. change (B 1) with (2 # 1)%Q. ring. Qed.
Lemma B_mono a b : a <= b -> (B a <= B b)%Q.
Proof.
  intros H. replace b with (a + (b - a)) by lia. rewrite B_plus, (B_nat (b - a)) by lia.
  assert (H1 : (1 <= inject_Z (2 ^ (b - a)))%Q).
  { change 1%Q with (inject_Z 1). rewrite <- Zle_Qle. pose proof (Z.pow_pos_nonneg 2 (b - a)). lia. }
  pose proof (B_pos a) as P. assert (0 <= B a * (inject_Z (2 ^ (b - a)) - 1))%Q by (apply Qmult_le_0_compat; lra). lra.
Qed.
Lemma B_lt_inv a b : (B a < B b)%Q -> a < b.
Proof. intros H. destruct (Z_lt_le_dec a b) as [E|E]; auto. apply B_mono in E. lra. Qed.

(** *** nearest integers *)
Lemma rne_proper x y : (x == y)%Q -> rne x = rne y.
Proof.
  intros E. unfold rne. rewrite (Qfloor_comp _ _ E).
  assert (C : ((x - inject_Z (Qfloor y) ?= 1 # 2) = (y - inject_Z (Qfloor y) ?= 1 # 2))%Q).
  { apply Qcompare_comp; [|reflexivity]. rewrite E. reflexivity. }
  now rewrite C.
Qed.
Lemma rne_error x : (x - (1 # 2) <= inject_Z (rne x) /\ inject_Z (rne x) <= x + (1 # 2))%Q.
Proof.
  unfold rne. pose proof (Qfloor_le x) as L. pose proof (Qlt_floor x) as H.
  rewrite inject_Z_plus in H. change (inject_Z 1) with 1%Q in H.
  destruct (Qcompare_spec (x - inject_Z (Qfloor x)) (1 # 2)) as [C|C|C].
  - destruct (Z.even (Qfloor x)); [split; lra|]. rewrite inject_Z_plus. change (inject_Z 1) with 1%Q. split; lra.
  - split; lra.
  - rewrite inject_Z_plus. change (inject_Z 1) with 1%Q. split; lra.
Qed.
Lemma rne_mono x y : (x <= y)%Q -> rne x <= rne y.
Proof.
  intros H. destruct (Z_le_gt_dec (rne x) (rne y)) as [C|C]; auto.
  destruct (rne_error x) as [_ X]. destruct (rne_error y) as [Y _].
  assert (E : (x == y)%Q).
  { assert (inject_Z (rne y) + 1 <= inject_Z (rne x))%Q; [|lra].
    change 1%Q with (inject_Z 1). rewrite <- inject_Z_plus, <- Zle_Qle. lia. }
  rewrite (rne_proper _ _ E). lia.
Qed.
Lemma rne_int z : rne (inject_Z z) = z.
Proof.
  destruct (rne_error (inject_Z z)) as [A C]. set (r := rne (inject_Z z)) in *.
  assert (r < z + 1 /\ z < r + 1); [|lia].
  split; rewrite Zlt_Qlt, inject_Z_plus; change (inject_Z 1) with 1%Q; lra.
Qed.
Lemma rne_le x z : (x <= inject_Z z)%Q -> rne x <= z.
Proof. intros H. apply rne_mono in H. now rewrite rne_int in H. Qed.
Lemma rne_ge x z : (inject_Z z <= x)%Q -> z <= rne x.
Proof. intros H. apply rne_mono in H. now rewrite rne_int in H. Qed.

(** *** logarithms *)
Lemma qlog2_spec q : (0 < q)%Q -> (B (qlog2 q) <= q /\ q < B (qlog2 q + 1))%Q.
Proof.
  destruct q as [n d]. intros H. assert (Hn : 0 < n) by (unfold Qlt in H; simpl in H; lia).
  unfold qlog2. cbn [Qnum Qden]. set (a := Z.log2 n). set (b := Z.log2 (Z.pos d)).
  destruct (Z.log2_spec n Hn) as [A1 A2]. destruct (Z.log2_spec (Z.pos d) eq_refl) as [B1 B2]. fold a in A1, A2. fold b in B1, B2.
  assert (Ha : 0 <= a) by apply Z.log2_nonneg. assert (Hb : 0 <= b) by apply Z.log2_nonneg.
  assert (Eq : (n # d == inject_Z n / inject_Z (Z.pos d))%Q) by now rewrite <- Qmake_Qdiv.
  assert (Dp : (0 < inject_Z (Z.pos d))%Q) by reflexivity.
  assert (Q1 : ((n # d) * inject_Z (Z.pos d) == inject_Z n)%Q) by (rewrite Eq; field; lra).
  rewrite Zle_Qle, <- B_nat in A1 by lia. rewrite Zlt_Qlt, <- B_nat in A2 by lia.
  rewrite Zle_Qle, <- B_nat in B1 by lia. rewrite Zlt_Qlt, <- B_nat in B2 by lia.
  assert (Up : (n # d < B (a - b + 1))%Q).
  { apply (Qmult_lt_r _ _ (inject_Z (Z.pos d)) Dp). rewrite Q1.
    apply Qlt_le_trans with (B (Z.succ a)); auto. replace (Z.succ a) with (a - b + 1 + b) by lia. rewrite B_plus.
    apply Qmult_le_l; [apply B_pos|exact B1]. }
  assert (Lo : (B (a - b - 1) <= n # d)%Q).
  { apply (Qmult_le_r _ _ (inject_Z (Z.pos d)) Dp). rewrite Q1.
    apply Qle_trans with (B a); auto. replace a with (a - b - 1 + Z.succ b) at 2 by lia. rewrite B_plus.
    apply Qmult_le_l; [apply B_pos|]. now apply Qlt_le_weak. }
  fold (B (a - b)). destruct (Qle_bool (B (a - b)) (n # d)) eqn:E.
  - apply Qle_bool_iff in E. auto.
  - split; auto. replace (a - b - 1 + 1) with (a - b) by lia. apply Qnot_le_lt. intros C. apply Qle_bool_iff in C. congruence.
Qed.
Lemma qlog2_mono x y : (0 < x)%Q -> (x <= y)%Q -> qlog2 x <= qlog2 y.
Proof.
  intros Hx Hxy. assert (Hy : (0 < y)%Q) by lra.
  destruct (qlog2_spec x Hx) as [A _]. destruct (qlog2_spec y Hy) as [_ C].
  assert (L : (B (qlog2 x) < B (qlog2 y + 1))%Q) by lra. apply B_lt_inv in L. lia.
Qed.

Lemma last_bit_spec q : (0 < q)%Q -> - (1074) <= last_bit q /\ (q < B (last_bit q + 53))%Q /\
  (last_bit q = - (1074) \/ (last_bit q = qlog2 q - 52 /\ (B (last_bit q + 52) <= q)%Q)).
Proof.
  intros H. destruct (qlog2_spec q H) as [A C]. unfold last_bit.
  split; [lia|]. split.
  - apply Qlt_le_trans with (B (qlog2 q + 1)); auto. apply B_mono. lia.
  - destruct (Z.max_spec (qlog2 q - 52) (- (1074))) as [[_ ->]|[_ ->]]; auto. right. split; auto.
    now replace (qlog2 q - 52 + 52) with (qlog2 q) by lia.
Qed.
Lemma last_bit_mono x y : (0 < x)%Q -> (x <= y)%Q -> last_bit x <= last_bit y.
Proof. intros H H1. pose proof (qlog2_mono x y H H1). unfold last_bit. lia. Qed.

(** *** positive numbers *)
Definition significand (q : Q) : Z := rne (q * B (- last_bit q)).
Lemma pos64_is q : (pos64 q == inject_Z (significand q) * B (last_bit q))%Q.
Proof. unfold pos64. rewrite Qred_correct. reflexivity. Qed.
Lemma scaled q k : (q * B (- k) * B k == q)%Q.
Proof. pose proof (B_inv k) as H. rewrite <- Qmult_assoc, (Qmult_comm (B (- k))), H. ring. Qed.
Lemma significand_bound q : (0 < q)%Q -> 0 <= significand q <= 2 ^ 53.
Proof.
  intros H. destruct (last_bit_spec q H) as (_ & A & _). unfold significand. pose proof (B_pos (- last_bit q)) as P. split.
  - apply rne_ge. change (inject_Z 0) with 0%Q. apply Qmult_le_0_compat; lra.
  - apply rne_le. rewrite <- B_nat by lia. apply (Qmult_le_r _ _ (B (last_bit q)) (B_pos _)). rewrite scaled.
    rewrite <- B_plus. replace (53 + last_bit q) with (last_bit q + 53) by lia. lra.
Qed.
Lemma pos64_nonneg q : (0 < q)%Q -> (0 <= pos64 q)%Q.
Proof.
  intros H. rewrite pos64_is. apply Qmult_le_0_compat; [|apply Qlt_le_weak, B_pos].
  change 0%Q with (inject_Z 0). rewrite <- Zle_Qle. apply significand_bound. auto.
Qed.

(** multiples of a power of two with few enough digits stay *)
Lemma pos64_fix y m k : (0 < y)%Q -> (y == inject_Z m * B k)%Q -> - (1074) <= k -> m <= 2 ^ 53 -> (pos64 y == y)%Q.
Proof.
  intros Hy E Hk Hm. rewrite pos64_is. unfold significand. set (k' := last_bit y).
  assert (Hle : (y <= B (k + 53))%Q).
  { rewrite E. replace (k + 53) with (53 + k) by lia. rewrite B_plus. apply Qmult_le_compat_r; [|apply Qlt_le_weak, B_pos].
    rewrite B_nat by lia. now rewrite <- Zle_Qle. }
  assert (Hint : exists z, (y * B (- k') == inject_Z z)%Q).
  { destruct (Z_le_gt_dec k' k) as [C|C].
    - exists (m * 2 ^ (k - k')). rewrite inject_Z_mult, <- B_nat by lia. rewrite E, <- Qmult_assoc, <- B_plus.
      replace (k + - k') with (k - k') by lia. reflexivity.
    - (* the power of two itself *)
      destruct (last_bit_spec y Hy) as (_ & _ & [L|[_ L]]); fold k' in L; [lia|].
      assert (Hk' : k' = k + 1).
      { destruct (Z_le_gt_dec (k' + 52) (k + 53)) as [D|D]; [lia|].
        assert (D' : k + 53 + 1 <= k' + 52) by lia. apply B_mono in D'. rewrite B_succ in D'. pose proof (B_pos (k + 53)). lra. }
      assert (Ey : (y == B (k + 53))%Q) by (rewrite Hk' in L; replace (k + 1 + 52) with (k + 53) in L by lia; lra).
      exists (2 ^ 52). rewrite Ey, <- B_plus. rewrite Hk'. replace (k + 53 + - (k + 1)) with 52 by lia. apply B_nat. lia. }
  destruct Hint as [z Hz]. rewrite (rne_proper _ _ Hz), rne_int, <- Hz. apply scaled.
Qed.
Lemma pos64_error q : (0 < q)%Q -> (q - u64 * q - eta64 <= pos64 q /\ pos64 q <= q + u64 * q + eta64)%Q.
Proof.
  intros H. rewrite pos64_is. destruct (rne_error (q * B (- last_bit q))) as [A C]. fold (significand q) in A, C.
  pose proof (B_pos (last_bit q)) as P. set (k := last_bit q) in *. set (s := inject_Z (significand q)) in *.
  assert (A' : ((q * B (- k) - (1 # 2)) * B k <= s * B k)%Q) by (apply Qmult_le_compat_r; lra).
  assert (C' : (s * B k <= (q * B (- k) + (1 # 2)) * B k)%Q) by (apply Qmult_le_compat_r; lra).
  assert (S1 : ((q * B (- k) - (1 # 2)) * B k == q - (1 # 2) * B k)%Q).
  { setoid_replace ((q * B (- k) - (1 # 2)) * B k)%Q with (q * B (- k) * B k - (1 # 2) * B k)%Q by ring. rewrite scaled. reflexivity. }
  assert (S2 : ((q * B (- k) + (1 # 2)) * B k == q + (1 # 2) * B k)%Q).
  { setoid_replace ((q * B (- k) + (1 # 2)) * B k)%Q with (q * B (- k) * B k + (1 # 2) * B k)%Q by ring. rewrite scaled. reflexivity. }
  assert (Hh : ((1 # 2) * B k == B (k + - (1)))%Q) by (rewrite B_plus; change (B (- (1))) with (1 # 2)%Q; ring).
  assert (Hu : (0 < u64)%Q) by (apply (B_pos (- (53)))). assert (He : (0 < eta64)%Q) by (apply (B_pos (- (1075)))).
  assert (Huq : (0 <= u64 * q)%Q) by (apply Qmult_le_0_compat; lra).
  assert (Hb : ((1 # 2) * B k <= u64 * q + eta64)%Q).
  { rewrite Hh. destruct (last_bit_spec q H) as (_ & _ & [L|[L _]]); fold k in L; rewrite L.
    - change (B (- (1074) + - (1))) with eta64. lra.
    - destruct (qlog2_spec q H) as [Q1 _]. replace (qlog2 q - 52 + - (1)) with (- (53) + qlog2 q) by lia.
      rewrite B_plus. change (B (- (53))) with u64. assert (u64 * B (qlog2 q) <= u64 * q)%Q by (apply Qmult_le_l; lra). lra. }
  rewrite S1 in A'. rewrite S2 in C'. split; lra.
Qed.
Lemma pos64_mono x y : (0 < x)%Q -> (x <= y)%Q -> (pos64 x <= pos64 y)%Q.
Proof.
  intros Hx Hxy. assert (Hy : (0 < y)%Q) by lra. pose proof (last_bit_mono x y Hx Hxy) as Hk. rewrite !pos64_is.
  destruct (Z.eq_dec (last_bit x) (last_bit y)) as [E|E].
  - rewrite <- E. apply Qmult_le_compat_r; [|apply Qlt_le_weak, B_pos]. rewrite <- Zle_Qle. unfold significand. rewrite <- E.
    apply rne_mono. apply Qmult_le_compat_r; [auto|apply Qlt_le_weak, B_pos].
  - apply Qle_trans with (B (last_bit y + 52)).
    + apply Qle_trans with (B (last_bit x + 53)); [|apply B_mono; lia].
      replace (last_bit x + 53) with (53 + last_bit x) by lia. rewrite B_plus. apply Qmult_le_compat_r; [|apply Qlt_le_weak, B_pos].
      rewrite B_nat by lia. rewrite <- Zle_Qle. apply significand_bound. auto.
    + destruct (last_bit_spec x Hx) as (L & _). destruct (last_bit_spec y Hy) as (_ & _ & [C|[_ C]]); [lia|].
      replace (last_bit y + 52) with (52 + last_bit y) by lia. rewrite B_plus. apply Qmult_le_compat_r; [|apply Qlt_le_weak, B_pos].
      rewrite B_nat by lia. rewrite <- Zle_Qle. unfold significand. apply rne_ge. rewrite <- B_nat by lia.
      apply (Qmult_le_r _ _ (B (last_bit y)) (B_pos _)). rewrite scaled, <- B_plus.
      now replace (52 + last_bit y) with (last_bit y + 52) by lia.
Qed.

(** *** all numbers *)
Lemma rnd64_pos q : (0 < q)%Q -> rnd64 q = pos64 q.
Proof. intros H. unfold rnd64. destruct (Qcompare_spec q 0); auto; exfalso; lra. Qed.
Lemma rnd64_neg q : (q < 0)%Q -> rnd64 q = (- pos64 (- q))%Q.
Proof. intros H. unfold rnd64. destruct (Qcompare_spec q 0); auto; exfalso; lra. Qed.
Lemma rnd64_zero q : (q == 0)%Q -> rnd64 q = 0%Q.
Proof. intros H. unfold rnd64. destruct (Qcompare_spec q 0); auto; exfalso; lra. Qed.
Lemma sign_cases q : (0 < q)%Q \/ (q == 0)%Q \/ (q < 0)%Q.
Proof. destruct (Q_dec q 0) as [[H|H]|H]; auto. Qed.
Lemma rnd64_mono x y : (x <= y)%Q -> (rnd64 x <= rnd64 y)%Q.
Proof.
  intros H. destruct (sign_cases x) as [X|[X|X]]; destruct (sign_cases y) as [Y|[Y|Y]]; try (exfalso; lra);
    rewrite ?(rnd64_pos _ X), ?(rnd64_zero _ X), ?(rnd64_neg _ X), ?(rnd64_pos _ Y), ?(rnd64_zero _ Y), ?(rnd64_neg _ Y); try lra.
  - now apply pos64_mono.
  - now apply pos64_nonneg.
  - pose proof (pos64_nonneg (- x)). pose proof (pos64_nonneg y Y). lra.
  - pose proof (pos64_nonneg (- x)). lra.
  - assert (pos64 (- y) <= pos64 (- x))%Q by (apply pos64_mono; lra). lra.
Qed.
Lemma pos64_idem q : (0 < q)%Q -> (rnd64 (pos64 q) == pos64 q)%Q.
Proof.
  intros H. pose proof (pos64_nonneg q H) as N. destruct (sign_cases (pos64 q)) as [X|[X|X]]; [| |lra].
  - rewrite (rnd64_pos _ X). destruct (last_bit_spec q H) as (L & _).
    apply (pos64_fix _ (significand q) (last_bit q) X (pos64_is q) L). now apply significand_bound.
  - rewrite (rnd64_zero _ X). now symmetry.
Qed.
Lemma rnd64_proper x y : (x == y)%Q -> (rnd64 x == rnd64 y)%Q.
Proof.
  intros E. assert (A : (rnd64 x <= rnd64 y)%Q) by (apply rnd64_mono; lra).
  assert (C : (rnd64 y <= rnd64 x)%Q) by (apply rnd64_mono; lra). lra.
Qed.
Lemma rnd64_opp q : (rnd64 (- q) == - rnd64 q)%Q.
Proof.
  destruct (sign_cases q) as [X|[X|X]].
  - rewrite (rnd64_pos _ X). rewrite rnd64_neg by lra.
    assert (E : (- - q == q)%Q) by ring. assert (A : (0 < - - q)%Q) by lra.
    pose proof (rnd64_proper _ _ E) as P. rewrite (rnd64_pos _ A), (rnd64_pos _ X) in P. now rewrite P.
  - rewrite (rnd64_zero q X), rnd64_zero by lra. reflexivity.
  - rewrite (rnd64_neg _ X), rnd64_pos by lra. now rewrite Qopp_involutive.
Qed.

Theorem rounding64 : rounding u64 eta64 rnd64.
Proof.
  constructor.
  - split; [apply Qlt_le_weak, (B_pos (- (53)))|reflexivity].
  - apply Qlt_le_weak, (B_pos (- (1075))).
  - reflexivity.
  - exact rnd64_mono.
  - intros x. destruct (sign_cases x) as [X|[X|X]].
    + rewrite (rnd64_pos _ X). now apply pos64_idem.
    + rewrite (rnd64_zero _ X). reflexivity.
    + rewrite (rnd64_neg _ X), rnd64_opp. assert (Y : (0 < - x)%Q) by lra. now rewrite (pos64_idem _ Y).
  - intros x Hx. destruct (sign_cases x) as [X|[X|X]]; [| |lra].
    + rewrite (rnd64_pos _ X). destruct (pos64_error x X) as [A _]. lra.
    + rewrite (rnd64_zero _ X), X. pose proof (B_pos (- (1075))) as P. fold eta64 in P. change (B (- (1075))) with eta64 in P. lra.
  - intros x Hx. destruct (sign_cases x) as [X|[X|X]]; [| |lra].
    + rewrite (rnd64_pos _ X). destruct (pos64_error x X) as [_ A]. lra.
    + rewrite (rnd64_zero _ X), X. pose proof (B_pos (- (1075))) as P. change (B (- (1075))) with eta64 in P. lra.
Qed.

(** *** nothing representable is nearer *)
Lemma rne_nearest x z : (Qabs (inject_Z (rne x) - x) <= Qabs (inject_Z z - x))%Q.
Proof.
  destruct (Z.eq_dec z (rne x)) as [->|N]; [apply Qle_refl|]. destruct (rne_error x) as [A C].
  assert (H1 : (Qabs (inject_Z (rne x) - x) <= 1 # 2)%Q) by (apply Qabs_Qle_condition; split; lra).
  assert (H2 : ((1 # 2) <= Qabs (inject_Z z - x))%Q); [|lra].
  destruct (Z_lt_le_dec z (rne x)) as [L|L].
  - assert (E : (inject_Z z + 1 <= inject_Z (rne x))%Q).
    { change 1%Q with (inject_Z 1). rewrite <- inject_Z_plus, <- Zle_Qle. lia. }
    rewrite Qabs_neg by lra. lra.
  - assert (E : (inject_Z (rne x) + 1 <= inject_Z z)%Q).
    { change 1%Q with (inject_Z 1). rewrite <- inject_Z_plus, <- Zle_Qle. lia. }
    rewrite Qabs_pos by lra. lra.
Qed.
Lemma grid_nearest q z : (0 < q)%Q -> (Qabs (pos64 q - q) <= Qabs (inject_Z z * B (last_bit q) - q))%Q.
Proof.
  intros H. set (k := last_bit q). pose proof (B_pos k) as P.
  assert (E : forall w, (Qabs (inject_Z w * B k - q) == Qabs (inject_Z w - q * B (- k)) * B k)%Q).
  { intros w. rewrite <- (Qabs_pos (B k)) at 2 by lra. rewrite <- Qabs_Qmult. apply Qabs_wd.
    setoid_replace ((inject_Z w - q * B (- k)) * B k)%Q with (inject_Z w * B k - q * B (- k) * B k)%Q by ring.
    rewrite scaled. reflexivity. }
  rewrite pos64_is. fold k. rewrite !E. apply Qmult_le_compat_r; [|lra]. unfold significand. fold k. apply rne_nearest.
Qed.
Lemma pos64_nearest q r : (0 < q)%Q -> representable r -> (Qabs (pos64 q - q) <= Qabs (r - q))%Q.
Proof.
  intros H (m & k & Hm & Hk & E). change (Qpower (2 # 1) k) with (B k) in E.
  assert (Ea : (Qabs (r - q) == Qabs (inject_Z m * B k - q))%Q) by (apply Qabs_wd; rewrite E; reflexivity).
  rewrite Ea. destruct (Z_le_gt_dec (last_bit q) k) as [C|C].
  - assert (G : (inject_Z m * B k == inject_Z (m * 2 ^ (k - last_bit q)) * B (last_bit q))%Q).
    { rewrite inject_Z_mult, <- B_nat by lia. rewrite <- Qmult_assoc, <- B_plus.
      now replace (k - last_bit q + last_bit q) with k by lia. }
    assert (Eg : (Qabs (inject_Z m * B k - q) == Qabs (inject_Z (m * 2 ^ (k - last_bit q)) * B (last_bit q) - q))%Q)
      by (apply Qabs_wd; rewrite G; reflexivity).
    rewrite Eg. now apply grid_nearest.
  - destruct (last_bit_spec q H) as (_ & _ & [L|[_ L]]); [lia|].
    apply Qle_trans with (Qabs (inject_Z (2 ^ 52) * B (last_bit q) - q)); [now apply grid_nearest|].
    assert (T : (inject_Z (2 ^ 52) * B (last_bit q) == B (last_bit q + 52))%Q).
    { rewrite <- B_nat by lia. rewrite <- B_plus. now replace (52 + last_bit q) with (last_bit q + 52) by lia. }
    assert (S : (inject_Z m * B k <= B (last_bit q + 52))%Q).
    { apply Qle_trans with (B (k + 53)); [|apply B_mono; lia]. replace (k + 53) with (53 + k) by lia. rewrite B_plus.
      apply Qmult_le_compat_r; [|apply Qlt_le_weak, B_pos]. rewrite B_nat by lia. rewrite <- Zle_Qle. lia. }
    rewrite !Qabs_neg by lra. lra.
Qed.
Lemma rnd64_representable q : representable (rnd64 q).
Proof.
  assert (Hp : forall x, (0 < x)%Q -> representable (pos64 x) /\ representable (- pos64 x)).
  { intros x Hx. destruct (last_bit_spec x Hx) as (L & _). pose proof (significand_bound x Hx) as S. split.
    - exists (significand x), (last_bit x). split; [lia|]. split; [auto|]. apply pos64_is.
    - exists (- significand x), (last_bit x). split; [lia|]. split; [auto|]. rewrite pos64_is, inject_Z_opp. unfold B. ring. }
  destruct (sign_cases q) as [X|[X|X]].
  - rewrite (rnd64_pos _ X). now apply Hp.
  - rewrite (rnd64_zero _ X). exists 0, 0. split; [lia|]. split; [lia|]. reflexivity.
  - rewrite (rnd64_neg _ X). apply Hp. lra.
Qed.
Lemma rnd64_nearest q r : representable r -> (Qabs (rnd64 q - q) <= Qabs (r - q))%Q.
Proof.
  intros H. destruct (sign_cases q) as [X|[X|X]].
  - rewrite (rnd64_pos _ X). now apply pos64_nearest.
  - rewrite (rnd64_zero _ X). assert (E : (Qabs (0 - q) == 0)%Q) by (rewrite X; reflexivity). rewrite E. apply Qabs_nonneg.
  - rewrite (rnd64_neg _ X).
    assert (H' : representable (- r)).
    { destruct H as (m & k & Hm & Hk & E). exists (- m), k. split; [lia|]. split; [auto|]. rewrite E, inject_Z_opp. ring. }
    assert (Y : (0 < - q)%Q) by lra. pose proof (pos64_nearest _ _ Y H') as N.
    rewrite <- (Qabs_opp (- pos64 (- q) - q)), <- (Qabs_opp (r - q)).
    assert (E1 : (- (- pos64 (- q) - q) == pos64 (- q) - - q)%Q) by ring. assert (E2 : (- (r - q) == - r - - q)%Q) by ring.
    now rewrite (Qabs_wd _ _ E1), (Qabs_wd _ _ E2).
Qed.
