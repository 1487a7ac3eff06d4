(** Proofs about approximate comparison *)
From Coq Require Import QArith Qround Qabs Qfield List Bool ZArith Lia Lqa.
From Verif Require Import Base F64 ModelApprox.
Import ListNotations.
Open Scope Q_scope.

(** tolerance 1.5e-6 *)
Definition TOL : Q := 3 # 2000000.

Lemma Qfloor_le_iff q z : (z <= Qfloor q)%Z <-> inject_Z z <= q.
Proof.
  split; intros H.
  - apply Qle_trans with (inject_Z (Qfloor q)); [now rewrite <- Zle_Qle|apply Qfloor_le].
  - rewrite <- (Qfloor_Z z). now apply Qfloor_resp_le.
Qed.

Lemma Qfloor_lt_iff q z : (Qfloor q < z)%Z <-> q < inject_Z z.
Proof.
  pose proof (Qfloor_le_iff q z) as H. split; intros H'.
  - apply Qnot_le_lt. intros Hc. apply H in Hc. lia.
  - destruct (Z_lt_le_dec (Qfloor q) z); auto. apply H in l. exfalso.
    apply (Qlt_not_le _ _ H'). exact l.
Qed.

Lemma qround_small q : (Z.abs (qround q) <= 1)%Z <-> Qabs q < 3 # 2.
Proof.
  unfold qround. destruct (Qle_bool 0 q) eqn:E.
  - apply Qle_bool_iff in E. rewrite (Qabs_pos q E).
    assert (H0 : (0 <= Qfloor (q + (1 # 2)))%Z).
    { apply Qfloor_le_iff. change (inject_Z 0) with 0. lra. }
    rewrite Z.abs_eq by lia. split; intros H.
    + assert (H1 : (Qfloor (q + (1 # 2)) < 2)%Z) by lia. apply Qfloor_lt_iff in H1.
      change (inject_Z 2) with 2 in H1. lra.
    + enough (Qfloor (q + (1 # 2)) < 2)%Z by lia. apply Qfloor_lt_iff. change (inject_Z 2) with 2. lra.
  - assert (Hn : q < 0).
    { apply Qnot_le_lt. intros Hc. apply Qle_bool_iff in Hc. congruence. }
    rewrite (Qabs_neg q) by lra.
    assert (H0 : (0 <= Qfloor (- q + (1 # 2)))%Z).
    { apply Qfloor_le_iff. change (inject_Z 0) with 0. lra. }
    rewrite Z.abs_opp, Z.abs_eq by lia. split; intros H.
    + assert (H1 : (Qfloor (- q + (1 # 2)) < 2)%Z) by lia. apply Qfloor_lt_iff in H1.
      change (inject_Z 2) with 2 in H1. lra.
    + enough (Qfloor (- q + (1 # 2)) < 2)%Z by lia. apply Qfloor_lt_iff. change (inject_Z 2) with 2. lra.
Qed.

Lemma Qabs_injectZ z : Qabs (inject_Z z) == inject_Z (Z.abs z).
Proof. unfold Qabs, inject_Z. simpl. reflexivity. Qed.

Lemma approx_small q : fleb (fabs (approx (Fin q))) F64_ABS = true <-> Qabs q < TOL.
Proof.
  unfold approx, fdiv, F64_ABS. change (qsign ABSQ) with Gt. cbn [fround fmul fabs].
  unfold fleb, fcmp.
  assert (Hscale : Qabs (q / ABSQ) == Qabs q * 1000000).
  { unfold Qdiv. rewrite Qabs_Qmult. change (Qabs (/ ABSQ)) with (1000000 # 1). reflexivity. }
  assert (Hab : Qabs (inject_Z (qround (q / ABSQ)) * ABSQ) == inject_Z (Z.abs (qround (q / ABSQ))) * ABSQ).
  { rewrite Qabs_Qmult, Qabs_injectZ. reflexivity. }
  assert (Hle : Qabs (inject_Z (qround (q / ABSQ)) * ABSQ) <= ABSQ <-> (Z.abs (qround (q / ABSQ)) <= 1)%Z).
  { rewrite Hab. rewrite Zle_Qle. change (inject_Z 1) with 1. unfold ABSQ.
    set (u := inject_Z (Z.abs (qround (q / (1 # 1000000))))). clearbody u. split; intros; lra. }
  rewrite qround_small, Hscale in Hle.
  assert (Hf : Qabs (inject_Z (qround (q / ABSQ)) * ABSQ) <= ABSQ <-> Qabs q < TOL).
  { rewrite Hle. unfold TOL. split; intros; lra. }
  rewrite <- Hf. set (u := Qabs (inject_Z (qround (q / ABSQ)) * ABSQ)). clearbody u.
  destruct (Qcompare_spec u ABSQ) as [H|H|H]; split; intros H'; auto; try lra; try discriminate.
Qed.

(** equality of [Approx] values is closeness *)
Lemma approx_eq_iff x y :
  approx_eq x y = true <-> exists a b, x = Fin a /\ y = Fin b /\ Qabs (a - b) < TOL.
Proof.
  unfold approx_eq. destruct x as [a| | |], y as [b| | |];
    try (split; [vm_compute; discriminate|intros (?&?&?&?&?); discriminate]).
  unfold fsub. cbn [fneg fadd]. rewrite approx_small. split.
  - intros H. exists a, b. auto.
  - intros (a' & b' & Ha & Hb & H). injection Ha as <-. injection Hb as <-. exact H.
Qed.

Lemma approx_eq_fin a b : approx_eq (Fin a) (Fin b) = true <-> Qabs (a - b) < TOL.
Proof.
  rewrite approx_eq_iff. split.
  - intros (a' & b' & Ha & Hb & H). injection Ha as <-. injection Hb as <-. exact H.
  - intros H. exists a, b. auto.
Qed.

Lemma approx_eq_fin_false a b : approx_eq (Fin a) (Fin b) = false <-> TOL <= Qabs (a - b).
Proof.
  destruct (approx_eq (Fin a) (Fin b)) eqn:E.
  - apply approx_eq_fin in E. split; [discriminate|]. intros H. lra.
  - split; auto. intros _. apply Qnot_lt_le. intros H. apply approx_eq_fin in H. congruence.
Qed.

Lemma Qabs_lt_iff q t : Qabs q < t <-> - t < q /\ q < t.
Proof.
  pose proof (Qabs_Qlt_condition q t) as H. tauto.
Qed.

(** ordering of [Approx] values *)
Lemma approx_cmp_lt a b : approx_cmp (Fin a) (Fin b) = Some Lt <-> a + TOL <= b.
Proof.
  unfold approx_cmp. destruct (approx_eq (Fin a) (Fin b)) eqn:E.
  - apply approx_eq_fin, Qabs_lt_iff in E. split; [discriminate|]. intros. exfalso. lra.
  - apply approx_eq_fin_false in E. simpl.
    destruct (Qcompare_spec a b) as [H|H|H].
    + rewrite H in E. setoid_replace (b - b) with 0 in E by ring. unfold TOL in E. simpl in E.
      exfalso. revert E. unfold Qle. simpl. lia.
    + split; auto. intros _. rewrite (Qabs_neg (a - b)) in E by lra. lra.
    + split; [discriminate|]. intros. exfalso. unfold TOL in *. lra.
Qed.

Lemma approx_cmp_gt a b : approx_cmp (Fin a) (Fin b) = Some Gt <-> b + TOL <= a.
Proof.
  unfold approx_cmp. destruct (approx_eq (Fin a) (Fin b)) eqn:E.
  - apply approx_eq_fin, Qabs_lt_iff in E. split; [discriminate|]. intros. exfalso. lra.
  - apply approx_eq_fin_false in E. simpl.
    destruct (Qcompare_spec a b) as [H|H|H].
    + rewrite H in E. setoid_replace (b - b) with 0 in E by ring. unfold TOL in E. simpl in E.
      exfalso. revert E. unfold Qle. simpl. lia.
    + split; [discriminate|]. intros. exfalso. unfold TOL in *. lra.
    + split; auto. intros _. rewrite (Qabs_pos (a - b)) in E by lra. lra.
Qed.

Lemma approx_cmp_eq a b : approx_cmp (Fin a) (Fin b) = Some Eq <-> Qabs (a - b) < TOL.
Proof.
  unfold approx_cmp. destruct (approx_eq (Fin a) (Fin b)) eqn:E.
  - apply approx_eq_fin in E. tauto.
  - apply approx_eq_fin_false in E. simpl. split.
    + intros H. injection H as H. apply Qeq_alt in H. rewrite H in E.
      setoid_replace (b - b) with 0 in E by ring. unfold TOL in E. simpl in E.
      exfalso. revert E. unfold Qle. simpl. lia.
    + intros H. exfalso. exact (Qlt_not_le _ _ H E).
Qed.

Lemma approx_cmp_fin a b : exists c, approx_cmp (Fin a) (Fin b) = Some c.
Proof. unfold approx_cmp. destruct (approx_eq _ _); simpl; eauto. Qed.

(** vectors *)
Lemma approx_le_vec_nth x y i a b :
  approx_le_vec x y = true -> nth_error x i = Some (Fin a) -> nth_error y i = Some (Fin b) ->
  a < b + TOL.
Proof.
  revert y i. induction x as [|u x IH]; intros [|w y] [|i] H Hx Hy; simpl in *; try discriminate.
  - injection Hx as ->. injection Hy as ->.
    destruct (approx_cmp (Fin a) (Fin b)) as [[]|] eqn:E; try discriminate.
    + apply approx_cmp_eq, Qabs_lt_iff in E. lra.
    + apply approx_cmp_lt in E. unfold TOL in *. lra.
    + destruct (approx_cmp_fin a b) as [c Hc]. congruence.
  - eapply IH; eauto. destruct (approx_cmp u w) as [[]|]; auto; discriminate.
Qed.

Lemma approx_eq_vec_nth x y : approx_eq_vec x y = true <->
  forall i a b, nth_error x i = Some a -> nth_error y i = Some b -> approx_eq a b = true.
Proof.
  revert y. induction x as [|u x IH]; intros [|w y]; simpl.
  - split; auto. intros _ [|i]; discriminate.
  - split; auto. intros _ [|i]; discriminate.
  - split; auto. intros _ [|i] a b _ H; discriminate H.
  - rewrite andb_true_iff, IH. split.
    + intros [H1 H2] [|i] a b Ha Hb; simpl in *; [congruence|eauto].
    + intros H. split; [apply (H O); reflexivity|]. intros i. apply (H (S i)).
Qed.
