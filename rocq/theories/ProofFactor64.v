(** Counting the roundings of a calculation without differences in binary64 *)
From Coq Require Import String List Bool Arith ZArith QArith Qabs Qround Lia Lqa.
From Verif Require Import Base F64 Lib ModelRounded ModelRoundedHeap SpecRounded SpecRoundedMetrics ProofRounded ProofRounding64 ProofCompare64.
Import ListNotations.
Open Scope Q_scope.

Lemma H64_ge1 : 1 <= H64. Proof. apply by_le. vm_compute. reflexivity. Qed.
Lemma H64_u : H64 * (1 - u64) == 1. Proof. apply by_eq. vm_compute. reflexivity. Qed.
Lemma H64_u' : 1 + u64 <= H64. Proof. apply by_le. vm_compute. reflexivity. Qed.
Lemma powH_ge1 k : 1 <= pow H64 k. Proof. apply pow_ge_1, H64_ge1. Qed.
Lemma pow_plus q a b : pow q (a + b) == pow q a * pow q b.
Proof. induction a as [|a IH]; simpl; [ring|]. rewrite IH. ring. Qed.

Lemma off_refl k q : 0 <= q -> off k q q.
Proof. intros H. pose proof (powH_ge1 k). assert (0 <= q * (pow H64 k - 1)) by (apply Qmult_le_0_compat; lra). split; lra. Qed.
Lemma off_proper k q q' x x' : q == q' -> x == x' -> off k q x -> off k q' x'.
Proof. intros E F [A C]. unfold off. rewrite <- E, <- F. split; auto. Qed.
Lemma off_weaken k l q x : (k <= l)%nat -> 0 <= q -> 0 <= x -> off k q x -> off l q x.
Proof.
  intros H Hq Hx [A C]. pose proof (pow_grow H64 k l H64_ge1 H) as P.
  assert (0 <= x * (pow H64 l - pow H64 k)) by (apply Qmult_le_0_compat; lra).
  assert (0 <= q * (pow H64 l - pow H64 k)) by (apply Qmult_le_0_compat; lra). split; lra.
Qed.
Lemma off_trans k l a x y : off k a x -> off l x y -> off (k + l) a y.
Proof.
  intros [A C] [D E]. pose proof (powH_ge1 k). pose proof (powH_ge1 l). unfold off. rewrite pow_plus. split.
  - assert (x * pow H64 k <= y * pow H64 l * pow H64 k) by (apply Qmult_le_compat_r; lra). lra.
  - assert (x * pow H64 l <= a * pow H64 k * pow H64 l) by (apply Qmult_le_compat_r; lra). lra.
Qed.
Lemma off_sym k a x : off k a x -> off k x a.
Proof. intros [A C]. split; auto. Qed.
Lemma off_plus k a b x y : off k a x -> off k b y -> off k (a + b) (x + y).
Proof. intros [A C] [D E]. split; lra. Qed.
Lemma mult_le a b c d : 0 <= a -> 0 <= c -> a <= b -> c <= d -> a * c <= b * d.
Proof.
  intros Ha Hc H K. assert (a * c <= b * c) by (apply Qmult_le_compat_r; auto).
  assert (0 <= b * (d - c)) by (apply Qmult_le_0_compat; lra). lra.
Qed.
Lemma off_mult k l a b x y : 0 <= a -> 0 <= b -> 0 <= x -> 0 <= y -> off k a x -> off l b y -> off (k + l) (a * b) (x * y).
Proof.
  intros Ha Hb Hx Hy [A C] [D E]. unfold off. rewrite pow_plus. split.
  - setoid_replace (x * y * (pow H64 k * pow H64 l)) with (x * pow H64 k * (y * pow H64 l)) by ring. apply mult_le; auto.
  - setoid_replace (a * b * (pow H64 k * pow H64 l)) with (a * pow H64 k * (b * pow H64 l)) by ring. apply mult_le; auto.
Qed.
Lemma off_inv k b y : 0 < b -> 0 < y -> off k b y -> off k (/ b) (/ y).
Proof.
  intros Hb Hy [A C]. pose proof (powH_ge1 k). split.
  - apply Qmult_le_l with (b * y); [apply Qmult_lt_0_compat; auto|].
    setoid_replace (b * y * / b) with y by (field; lra). setoid_replace (b * y * (/ y * pow H64 k)) with (b * pow H64 k) by (field; lra). lra.
  - apply Qmult_le_l with (b * y); [apply Qmult_lt_0_compat; auto|].
    setoid_replace (b * y * / y) with b by (field; lra). setoid_replace (b * y * (/ b * pow H64 k)) with (y * pow H64 k) by (field; lra). lra.
Qed.
Lemma off_div k l a b x y : 0 <= a -> 0 < b -> 0 <= x -> 0 < y -> off k a x -> off l b y -> off (k + l) (a / b) (x / y).
Proof.
  intros Ha Hb Hx Hy A C. apply off_mult; auto; try (apply Qlt_le_weak, Qinv_lt_0_compat; auto). now apply off_inv.
Qed.
Lemma off_zero k x : off k 0 x -> x <= 0.
Proof. intros [_ C]. lra. Qed.
Lemma off_pos k q x : 0 < q -> off k q x -> 0 < x.
Proof.
  intros H [A _]. pose proof (powH_ge1 k). destruct (Qlt_le_dec 0 x); auto.
  assert (0 <= (- x) * pow H64 k) by (apply Qmult_le_0_compat; lra). lra.
Qed.

(** the factor stays small *)
Lemma bernoulli u k : 0 <= u -> u <= 1 -> 1 - nq k * u <= pow (1 - u) k.
Proof.
  intros H0 H1. induction k as [|k IH]; simpl; [change (nq 0) with 0; lra|].
  rewrite nq_S. assert (A : (1 - u) * (1 - nq k * u) <= (1 - u) * pow (1 - u) k).
  { rewrite !(Qmult_comm (1 - u)). apply Qmult_le_compat_r; lra. }
  assert (0 <= nq k * u * u) by (apply Qmult_le_0_compat; auto; apply Qmult_le_0_compat; auto; apply nq_nonneg). lra.
Qed.
Lemma powH_u k : pow H64 k * pow (1 - u64) k == 1.
Proof.
  induction k as [|k IH]; simpl; [ring|].
  setoid_replace (H64 * pow H64 k * ((1 - u64) * pow (1 - u64) k)) with (H64 * (1 - u64) * (pow H64 k * pow (1 - u64) k)) by ring.
  rewrite IH, H64_u. ring.
Qed.
Lemma u64_01 : 0 <= u64 /\ u64 <= 1. Proof. split; apply by_le; vm_compute; reflexivity. Qed.
(** [k] roundings make less than 2 * k / 2^53 *)
Lemma powH_small k : (Z.of_nat k <= 2 ^ 52)%Z -> pow H64 k <= 1 + 2 * (nq k * u64).
Proof.
  intros Hk. destruct u64_01 as [U0 U1]. pose proof (bernoulli u64 k U0 U1) as A. pose proof (powH_u k) as E. pose proof (powH_ge1 k) as G.
  assert (N : nq k * u64 <= 1 # 2).
  { apply Qle_trans with (inject_Z (2 ^ 52) * u64); [|apply by_le; vm_compute; reflexivity].
    apply Qmult_le_compat_r; auto. unfold nq. now rewrite <- Zle_Qle. }
  assert (N0 : 0 <= nq k * u64) by (apply Qmult_le_0_compat; auto; apply nq_nonneg).
  set (d := nq k * u64) in *. set (h := pow H64 k) in *.
  assert (A' : h * (1 - d) <= 1). { rewrite <- E. rewrite !(Qmult_comm h). apply Qmult_le_compat_r; lra. }
  apply Qmult_le_l with (1 - d); [lra|]. assert (0 <= d * (1 - 2 * d)) by (apply Qmult_le_0_compat; lra). lra.
Qed.
Lemma powH_2 k : (Z.of_nat k <= 2 ^ 52)%Z -> pow H64 k <= 2.
Proof.
  intros Hk. pose proof (powH_small k Hk). destruct u64_01 as [U0 U1].
  assert (N : nq k * u64 <= 1 # 2).
  { apply Qle_trans with (inject_Z (2 ^ 52) * u64); [|apply by_le; vm_compute; reflexivity].
    apply Qmult_le_compat_r; auto. unfold nq. now rewrite <- Zle_Qle. } lra.
Qed.

(** *** One rounding *)
Lemma pos64_relative q : 0 < q -> B (- (1022)) <= q -> q - u64 * q <= pos64 q /\ pos64 q <= q + u64 * q.
Proof.
  intros H Hn. rewrite pos64_is. destruct (rne_error (q * B (- last_bit q))) as [A C]. fold (significand q) in A, C.
  pose proof (B_pos (last_bit q)) as P.
  assert (L : last_bit q = (qlog2 q - 52)%Z).
  { unfold last_bit. destruct (qlog2_spec q H) as [_ Q2].
    assert (B (- (1022)) < B (qlog2 q + 1)) as Hlt by lra. apply B_lt_inv in Hlt. lia. }
  set (k := last_bit q) in *. set (s := inject_Z (significand q)) in *.
  assert (A' : (q * B (- k) - (1 # 2)) * B k <= s * B k) by (apply Qmult_le_compat_r; lra).
  assert (C' : s * B k <= (q * B (- k) + (1 # 2)) * B k) by (apply Qmult_le_compat_r; lra).
  assert (S1 : (q * B (- k) - (1 # 2)) * B k == q - (1 # 2) * B k).
  { setoid_replace ((q * B (- k) - (1 # 2)) * B k) with (q * B (- k) * B k - (1 # 2) * B k) by ring. rewrite scaled. reflexivity. }
  assert (S2 : (q * B (- k) + (1 # 2)) * B k == q + (1 # 2) * B k).
  { setoid_replace ((q * B (- k) + (1 # 2)) * B k) with (q * B (- k) * B k + (1 # 2) * B k) by ring. rewrite scaled. reflexivity. }
  assert (Hh : (1 # 2) * B k == B (k + - (1))) by (rewrite B_plus; change (B (- (1))) with (1 # 2); ring).
  assert (Hu : 0 < u64) by (apply (B_pos (- (53)))).
  assert (Hb : (1 # 2) * B k <= u64 * q).
  { rewrite Hh, L. destruct (qlog2_spec q H) as [Q1 _]. replace (qlog2 q - 52 + - (1))%Z with (- (53) + qlog2 q)%Z by lia.
    rewrite B_plus. change (B (- (53))) with u64. apply Qmult_le_l; lra. }
  rewrite S1 in A'. rewrite S2 in C'. split; lra.
Qed.
Lemma rnd64_off q : 0 <= q -> q == 0 \/ B (- (1022)) <= q -> off 1 q (rnd64 q).
Proof.
  intros H0 [E|Hn].
  - rewrite (rnd64_zero q E). apply off_proper with 0 0; [lra|reflexivity|]. apply off_refl. lra.
  - assert (0 < q) by (pose proof (B_pos (- (1022))); lra). rewrite rnd64_pos by auto. destruct (pos64_relative q H Hn) as [A C].
    pose proof H64_u. pose proof H64_u'. pose proof H64_ge1. unfold off. simpl. split.
    + assert ((q - u64 * q) * H64 <= pos64 q * H64) as K by (apply Qmult_le_compat_r; lra).
      setoid_replace ((q - u64 * q) * H64) with (q * (H64 * (1 - u64))) in K by ring. rewrite H1 in K. lra.
    + assert (0 <= q * (H64 - (1 + u64))) by (apply Qmult_le_0_compat; lra). lra.
Qed.

Lemma rnd64_pow2 k : (- (1074) <= k)%Z -> rnd64 (B k) == B k.
Proof.
  intros H. rewrite rnd64_pos by apply B_pos. apply pos64_fix with 1%Z k; auto; [apply B_pos|change (inject_Z 1) with 1; ring|lia].
Qed.
Lemma top64_1000 : B 1000 <= top64. Proof. apply by_le. vm_compute. reflexivity. Qed.

(** whatever isn't huge doesn't overflow *)
Lemma ieee_fits q : Qabs q <= B 1000 -> ieee (Fin q) = Fin (rnd64 q).
Proof.
  intros H. apply Qabs_Qle_condition in H. destruct H as [H1 H2]. pose proof top64_1000.
  assert (E : rnd64 (B 1000) == B 1000) by (apply rnd64_pow2; lia).
  pose proof (mono64 _ _ H1) as M1. pose proof (mono64 _ _ H2) as M2. rewrite rnd64_opp in M1.
  unfold ieee, ofin. replace (Qle_bool (rnd64 q) top64) with true; [|symmetry; apply Qle_bool_iff; lra].
  replace (Qle_bool (- top64) (rnd64 q)) with true; [|symmetry; apply Qle_bool_iff; lra]. reflexivity.
Qed.

(** 0 or between powers of two *)
Definition ranged (lo hi : Z) (q : Q) : Prop := q == 0 \/ (B lo <= q /\ q <= B hi).
Lemma ranged_nonneg lo hi q : ranged lo hi q -> 0 <= q.
Proof. pose proof (B_pos lo). intros [H1|[H1 H2]]; lra. Qed.
Lemma ranged_weaken lo hi lo' hi' q : (lo' <= lo)%Z -> (hi <= hi')%Z -> ranged lo hi q -> ranged lo' hi' q.
Proof. intros H K [E|[A C]]; [left; auto|right]. apply B_mono in H, K. lra. Qed.
Lemma ranged_proper lo hi q q' : q == q' -> ranged lo hi q -> ranged lo hi q'.
Proof. intros E [A|[A C]]; [left|right]; lra. Qed.
Lemma usual_ranged q : usual q <-> ranged (- (400)) 400 q.
Proof. unfold usual, ranged, B. split; auto. Qed.

Lemma ieee_step lo hi q : (- (1022) <= lo)%Z -> (hi <= 1000)%Z -> ranged lo hi q ->
  exists r, ieee (Fin q) = Fin r /\ off 1 q r /\ ranged lo hi r.
Proof.
  intros Hlo Hhi Hq. pose proof (ranged_nonneg _ _ _ Hq) as H0. exists (rnd64 q).
  assert (Hle : q <= B 1000). { destruct Hq as [E|[_ C]]; [pose proof (B_pos 1000); lra|]. apply B_mono in Hhi. lra. }
  split; [apply ieee_fits; rewrite Qabs_pos; auto|]. split.
  - apply rnd64_off; auto. destruct Hq as [E|[A _]]; auto. right. apply B_mono in Hlo. lra.
  - destruct Hq as [E|[A C]]; [left; rewrite (rnd64_zero _ E); reflexivity|right].
    assert (D : (lo <= hi)%Z).
    { destruct (Z_le_gt_dec lo hi) as [D|D]; auto. exfalso. assert (hi + 1 <= lo)%Z as D' by lia. apply B_mono in D'.
      rewrite B_succ in D'. pose proof (B_pos hi). lra. }
    apply mono64 in A, C. rewrite (rnd64_pow2 lo) in A by lia. rewrite (rnd64_pow2 hi) in C by lia. auto.
Qed.

(** sums and quotients of numbers between powers of two *)
Lemma ranged_mult lo hi lo' hi' a b : ranged lo hi a -> ranged lo' hi' b -> ranged (lo + lo') (hi + hi') (a * b).
Proof.
  intros [E|[A C]] [F|[D G]]; try (left; rewrite ?E, ?F; ring). right. rewrite !B_plus.
  pose proof (B_pos lo). pose proof (B_pos lo'). split; apply mult_le; lra.
Qed.
Lemma ranged_div lo hi lo' hi' a b : 0 < b -> ranged lo hi a -> ranged lo' hi' b -> ranged (lo - hi') (hi - lo') (a / b).
Proof.
  intros Hb Ha Hr. apply ranged_mult; auto. destruct Hr as [F|[D G]]; [lra|]. right. split.
  - apply Qmult_le_l with b; auto. rewrite Qmult_inv_r by lra. rewrite <- (B_inv hi'). apply Qmult_le_compat_r; auto. apply Qlt_le_weak, B_pos.
  - apply Qmult_le_l with b; auto. rewrite Qmult_inv_r by lra. rewrite <- (B_inv lo'). apply Qmult_le_compat_r; auto. apply Qlt_le_weak, B_pos.
Qed.
Lemma ranged_plus lo hi a b : ranged lo hi a -> ranged lo hi b -> ranged lo (hi + 1) (a + b).
Proof.
  pose proof (B_pos hi). pose proof (B_pos lo). pose proof (B_succ hi). intros [E|[A C]] [F|[D G]]; [left|right|right|right]; lra.
Qed.
Lemma whole_ranged n k : (0 <= k)%Z -> (Z.of_nat n <= 2 ^ k)%Z -> ranged 0 k (nq n).
Proof.
  intros Hk H. destruct n as [|n]; [left; reflexivity|right]. rewrite B_0, B_nat by auto. unfold nq.
  change 1 with (inject_Z 1). rewrite <- !Zle_Qle. lia.
Qed.
Lemma whole_exact n : (Z.of_nat n <= 2 ^ 53)%Z -> exists r, ieee (of_nat n) = Fin r /\ r == nq n.
Proof.
  intros H. unfold of_nat. fold (nq n). destruct (ieee_step 0 53 (nq n)) as (r & E & _ & _); [lia|lia|apply whole_ranged; lia|].
  exists (rnd64 (nq n)). split.
  - apply ieee_fits. rewrite Qabs_pos by apply nq_nonneg. apply Qle_trans with (B 53); [|apply B_mono; lia].
    rewrite B_nat by lia. unfold nq. now rewrite <- Zle_Qle.
  - destruct n as [|n]; [reflexivity|]. assert (0 < nq (S n)) by (unfold nq; change 0 with (inject_Z 0); rewrite <- Zlt_Qlt; lia).
    rewrite rnd64_pos by auto. apply pos64_fix with (Z.of_nat (S n)) 0%Z; auto; [|lia]. rewrite B_0. unfold nq. ring.
Qed.

(** *** Sums *)
Definition qsum (l : list Q) : Q := fold_right Qplus 0 l.
Lemma qsum_nonneg l : Forall (fun q => 0 <= q) l -> 0 <= qsum l.
Proof. induction 1; simpl; lra. Qed.
Lemma qsum_le l h : Forall (fun q => q <= h) l -> qsum l <= nq (length l) * h.
Proof.
  induction 1 as [|x l Hx H IH]; [change (nq (length (@nil Q))) with 0; simpl; lra|]. cbn [length qsum fold_right] in *. fold (qsum l) in *. rewrite nq_S. lra.
Qed.

(** adding up: [j] numbers before gave [s], standing for [a] *)
Lemma radd_sum lo hi l : forall a s j, (- (1022) <= lo)%Z -> (hi + 52 <= 1000)%Z -> (0 <= hi + 51)%Z -> (Z.of_nat (j + length l) <= 2 ^ 50)%Z ->
  Forall (ranged lo hi) l -> 0 <= a -> a <= nq j * B hi -> off j a s -> s == 0 \/ B lo <= s ->
  exists s', fold_left (radd ieee) (map Fin l) (Fin s) = Fin s' /\ off (j + length l) (a + qsum l) s' /\ (s' == 0 \/ B lo <= s').
Proof.
  induction l as [|q l IH]; intros a s j Hlo Hhi Hh0 Hj Hl Ha Hb Ho Hs.
  - exists s. split; [reflexivity|]. split; auto. simpl. rewrite Nat.add_0_r. apply off_proper with a s; auto; [ring|reflexivity].
  - inversion Hl as [|q' l' Hq Hl']; subst. cbn [map fold_left].
    pose proof (ranged_nonneg _ _ _ Hq) as Hq0. pose proof (B_pos lo) as Plo. pose proof (B_pos hi) as Phi.
    assert (Hs0 : 0 <= s) by (destruct Hs; lra).
    assert (Hqh : q <= B hi) by (destruct Hq as [E|[_ C]]; lra).
    assert (Hjn : nq j <= B 50). { rewrite B_nat by lia. unfold nq. rewrite <- Zle_Qle. lia. }
    assert (Hsu : s <= B (hi + 51)).
    { destruct Ho as [_ C]. assert (pow H64 j <= 2) by (apply powH_2; lia). pose proof (powH_ge1 j).
      assert (a * pow H64 j <= nq j * B hi * 2) by (apply mult_le; lra).
      assert (nq j * B hi <= B 50 * B hi) by (apply Qmult_le_compat_r; lra).
      replace (hi + 51)%Z with (50 + hi + 1)%Z by lia. rewrite B_succ, B_plus. lra. }
    destruct (ieee_step lo (hi + 52) (s + q)) as (r & Er & Or & Rr); [auto|auto| |].
    { replace (hi + 52)%Z with (hi + 51 + 1)%Z by lia. apply ranged_plus.
      - destruct Hs; [left|right]; auto.
      - destruct Hq as [E|[A C]]; [left; auto|right]. split; auto. apply Qle_trans with (B hi); auto. apply B_mono. lia. }
    unfold radd at 2. cbn [fadd]. rewrite Er.
    destruct (IH (a + q) r (S j)) as (s' & E' & O' & R'); auto.
    + cbn [length] in Hj. lia.
    + lra.
    + rewrite nq_S. lra.
    + replace (S j) with (j + 1)%nat by lia. apply off_trans with (s + q); auto. apply off_plus; auto. now apply off_refl.
    + destruct Rr as [E|[A _]]; auto.
    + exists s'. split; auto. split; auto. cbn [length]. replace (j + S (length l))%nat with (S j + length l)%nat by lia.
      apply off_proper with (a + q + qsum l) s'; auto; [simpl; ring|reflexivity].
Qed.
