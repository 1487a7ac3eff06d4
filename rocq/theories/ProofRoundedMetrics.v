(** Normalizing metrics in binary64 *)
From Coq Require Import String List Bool Arith ZArith QArith Qabs Qround Lia Lqa.
From Verif Require Import Base F64 Lib ModelUnits ModelConfig ModelGraph ModelBuild ModelBalancing ModelRounded ModelRoundedHeap ModelRoundedMetrics
  Spec SpecRounded SpecRoundedHeap SpecRoundedMetrics ProofMetrics ProofRounded ProofRounding64 ProofCompare64 ProofFactor64.
Import ListNotations.
Open Scope list_scope.
Open Scope nat_scope.

Section Any.
  Variable ar : f64 -> f64.
  Lemma rvadd_nth a b i x y : nth_error a i = Some x -> nth_error b i = Some y ->
    nth_error (rvadd ar a b) i = Some (radd ar x y).
  Proof.
    revert b i. induction a as [|u a IH]; intros [|w b] [|i] Ha Hb; simpl in *; try discriminate.
    - congruence.
    - eauto.
  Qed.
  Lemma rsums_nth (ms : list (list f64)) : forall acc i a (x : nat -> f64) s,
    nth_error acc i = Some a ->
    (forall e, e < length ms -> exists m, nth_error ms e = Some m /\ nth_error m i = Some (x (s + e))) ->
    nth_error (fold_left (rvadd ar) ms acc) i = Some (fold_left (radd ar) (map x (seq s (length ms))) a).
  Proof.
    induction ms as [|m ms IH]; intros acc i a x s Ha H; simpl; auto.
    destruct (H 0) as (m0 & E0 & Em); [simpl; lia|]. injection E0 as <-. rewrite Nat.add_0_r in Em.
    apply IH.
    - apply rvadd_nth; auto.
    - intros e He. destruct (H (S e)) as (m' & E1 & E2); [simpl; lia|]. exists m'. split; auto.
      now rewrite <- plus_n_Sm in E2.
  Qed.

  Lemma rnormalize_nth g g' i (x : nat -> f64) :
    rnormalize ar g = Ok g' -> ec_normalized (cfg_edges (g_cfg g)) = true ->
    length (metrics g) = edge_count g FWD -> i < metric_dim g ->
    (forall e, e < edge_count g FWD -> metric_of g e i = Some (x e)) ->
    edge_count g FWD <> 0 /\
    exists d, metric_mean g' i = Ok (Some d) /\
      d = rdiv ar (fold_left (radd ar) (map x (seq 0 (edge_count g FWD))) f0) (rof_nat ar (edge_count g FWD)) /\
      rapprox_eq ar d f0 = false /\
      forall e, e < edge_count g FWD -> metric_of g' e i = Some (rclamp ar (rdiv ar (x e) d)).
  Proof.
    intros E Hn Hl Hi Hq. unfold rnormalize in E. rewrite Hn in E.
    destruct (Nat.eqb_spec (edge_count g FWD) 0) as [|Hm]; [discriminate|]. split; auto.
    destruct (existsb (fun m => rapprox_eq ar m f0) (rmetric_means ar g)) eqn:Ez; [discriminate|].
    apply bind_ok in E. destruct E as (ms & Ems & E). injection E as <-.
    set (d := rdiv ar (fold_left (radd ar) (map x (seq 0 (edge_count g FWD))) f0) (rof_nat ar (edge_count g FWD))).
    assert (Emu : nth_error (rmetric_means ar g) i = Some d).
    { unfold rmetric_means. rewrite nth_error_map.
      rewrite (rsums_nth (metrics g) (repeat f0 (metric_dim g)) i f0 x 0).
      - rewrite Hl. reflexivity.
      - now rewrite nth_error_repeat.
      - intros e He. rewrite Hl in He. specialize (Hq e He). unfold metric_of, edge_metrics, idx in Hq.
        destruct (nth_error (metrics g) e) as [m|]; [|discriminate]. eauto. }
    exists d. split; [unfold metric_mean; simpl; unfold idx; now rewrite Emu|]. split; [reflexivity|]. split.
    - destruct (rapprox_eq ar d f0) eqn:Ea; auto. exfalso. rewrite <- not_true_iff_false in Ez. apply Ez.
      apply existsb_exists. exists d. split; auto. eapply nth_error_In; eauto.
    - intros e He. specialize (Hq e He). unfold metric_of, edge_metrics in *. simpl.
      unfold idx in *. destruct (nth_error (metrics g) e) as [m|] eqn:Em; [|discriminate].
      apply mapM_ok in Ems. assert (Hex : exists m', nth_error ms e = Some m' /\ rnormalize_vec ar (rmetric_means ar g) m = Ok m')
        by exact (Forall2_nth _ _ _ _ _ Ems Em).
      destruct Hex as (m' & Em' & Ev). rewrite Em'. unfold rnormalize_vec in Ev. apply mapM_ok in Ev.
      assert (Hen : nth_error (enumerate m) i = Some (i, x e)) by now rewrite enumerate_nth, Hq.
      destruct (Forall2_nth _ _ _ _ _ Ev Hen) as (y & Ey & Eq). cbn [fst snd] in Eq.
      unfold idx in Eq. rewrite Emu in Eq. cbn [bind] in Eq. congruence.
  Qed.
End Any.

Lemma sum_to_qsum n (q : nat -> Q) : forall s : nat, (sum_to n (fun e => q (s + e)%nat) == qsum (map q (seq s n)))%Q.
Proof.
  induction n as [|n IH]; intros s; [reflexivity|].
  rewrite seq_S, map_app. simpl sum_to. rewrite IH. simpl. generalize (map q (seq s n)) as l. intros l.
  induction l as [|a l IHl]; simpl; [ring|]. rewrite <- IHl. ring.
Qed.

Section Normalize.
  Open Scope Q_scope.
  Lemma ieee_64 : of64 ieee. Proof. now right. Qed.
  Lemma approx_false m : rapprox_eq ieee (Fin m) f0 = false -> 0 <= m -> (7 # 5000000) <= m.
  Proof.
    intros H Hm. destruct (Qlt_le_dec m (7 # 5000000)) as [L|L]; auto. exfalso. unfold f0 in H.
    rewrite (proj1 (rapprox_eq_64 ieee m 0 ieee_64)) in H; [discriminate|].
    assert (E : Qabs (m - 0) == m) by (rewrite Qabs_pos; lra). rewrite E.
    assert ((7 # 5000000) <= (3 # 2000000) - Qpower (2 # 1) (- (70))) by (apply by_le; vm_compute; reflexivity). lra.
  Qed.
  Lemma approx_true m : rapprox_eq ieee (Fin m) f0 = true -> 0 <= m -> m <= accuracy64.
  Proof.
    intros H Hm. destruct (Qlt_le_dec accuracy64 m) as [L|L]; auto. exfalso. unfold f0 in H.
    rewrite (proj2 (rapprox_eq_64 ieee m 0 ieee_64)) in H; [discriminate|].
    assert (E : Qabs (m - 0) == m) by (rewrite Qabs_pos; lra). rewrite E. lra.
  Qed.

  (** the mean of numbers between powers of two *)
  Lemma rmean_off lo hi (l : list Q) : l <> [] -> (Z.of_nat (length l) <= 2 ^ 50)%Z -> (- (972) <= lo)%Z -> (hi <= 948)%Z -> (- (51) <= hi)%Z ->
    Forall (ranged lo hi) l ->
    exists m, rdiv ieee (fold_left (radd ieee) (map Fin l) f0) (rof_nat ieee (length l)) = Fin m /\
      off (length l + 1) (qsum l / nq (length l)) m /\ ranged (lo - 50) (hi + 51) m.
  Proof.
    intros Hne Hn Hlo Hhi Hhi' Hl.
    destruct (radd_sum lo hi l 0 0 0) as (s & Es & Os & Rs);
      [lia|lia|lia|simpl; lia|exact Hl|lra|change (nq 0) with 0; lra|apply off_refl; lra|left; lra|].
    unfold f0. rewrite Es. simpl Nat.add in Os. assert (Os' : off (length l) (qsum l) s) by (apply off_proper with (0 + qsum l) s; [ring|reflexivity|auto]).
    assert (Hn0 : (0 < length l)%nat) by (destruct l; simpl; [congruence|lia]).
    unfold rof_nat. destruct (whole_exact (length l)) as (r & Er & Hr); [lia|]. rewrite Er.
    assert (Pn : 0 < nq (length l)) by (unfold nq; change 0 with (inject_Z 0); rewrite <- Zlt_Qlt; lia).
    unfold rdiv. rewrite fdiv_fin by lra.
    pose proof (qsum_nonneg l) as Hs0. assert (Hs0' : 0 <= qsum l).
    { apply Hs0. eapply Forall_impl; [|exact Hl]. intros a Ha. eapply ranged_nonneg; eauto. }
    assert (Rs' : ranged lo (hi + 51) s).
    { destruct Rs as [E|A]; [left; auto|right]. split; auto. destruct Os' as [_ C].
      assert (pow H64 (length l) <= 2) by (apply powH_2; lia). pose proof (powH_ge1 (length l)).
      assert (qsum l <= nq (length l) * B hi).
      { apply qsum_le. eapply Forall_impl; [|exact Hl]. intros a [Ha|[_ Ha]]; auto. pose proof (B_pos hi). lra. }
      assert (nq (length l) * B hi <= B 50 * B hi).
      { apply Qmult_le_compat_r; [|apply Qlt_le_weak, B_pos]. rewrite B_nat by lia. unfold nq. rewrite <- Zle_Qle. lia. }
      assert (qsum l * pow H64 (length l) <= B 50 * B hi * 2) by (apply mult_le; lra).
      replace (hi + 51)%Z with (50 + hi + 1)%Z by lia. rewrite B_succ, B_plus. lra. }
    assert (Rr : ranged 0 50 r). { apply ranged_proper with (nq (length l)); [lra|]. apply whole_ranged; lia. }
    destruct (ieee_step (lo - 50) (hi + 51 - 0) (s / r)) as (m & Em & Om & Rm); [lia|lia|apply ranged_div; auto; lra|].
    exists m. split; auto. split; [|now replace (hi + 51)%Z with (hi + 51 - 0)%Z by lia].
    apply off_trans with (s / r); auto. replace (length l) with (length l + 0)%nat at 1 by lia.
    apply off_div; auto; try lra; [destruct Rs; [lra|pose proof (B_pos lo); lra]|].
    apply off_proper with (nq (length l)) (nq (length l)); [reflexivity|lra|]. apply off_refl. lra.
  Qed.

  Lemma rnormalize_spec g g' i (q : nat -> Q) :
    rnormalize ieee g = Ok g' -> ec_normalized (cfg_edges (g_cfg g)) = true ->
    length (metrics g) = edge_count g FWD -> countable (edge_count g FWD) -> (i < metric_dim g)%nat ->
    (forall e, (e < edge_count g FWD)%nat -> metric_of g e i = Some (Fin (q e)) /\ usual (q e)) ->
    let n := edge_count g FWD in let mu := sum_to n q / nq n in
    0 < mu /\
    (exists m, metric_mean g' i = Ok (Some (Fin m)) /\ off (n + 1) mu m) /\
    forall e, (e < n)%nat -> exists y, metric_of g' e i = Some (Fin y) /\ rnd64 ABSQ <= y /\
      (off (n + 2) (q e / mu) y \/ y == rnd64 ABSQ /\ q e / mu <= accuracy64 * pow H64 (n + 2)).
  Proof.
    intros E Hf Hl Hc Hi Hq n mu. unfold countable in Hc. fold n in Hc, Hq.
    destruct (rnormalize_nth ieee g g' i (fun e => Fin (q e)) E Hf Hl Hi) as (Hn0 & d & Ed & Hd & Ha & Hy); [intros e He; apply Hq; auto|].
    fold n in Hn0, Hd, Hy.
    assert (Hmap : map (fun e => Fin (q e)) (seq 0 n) = map Fin (map q (seq 0 n))) by now rewrite map_map.
    assert (Hlen : length (map q (seq 0 n)) = n) by now rewrite map_length, seq_length.
    assert (Hr : Forall (ranged (- (400)) 400) (map q (seq 0 n))).
    { apply Forall_forall. intros x Hx. apply in_map_iff in Hx. destruct Hx as (e & <- & He). apply in_seq in He.
      apply usual_ranged. apply Hq. lia. }
    destruct (rmean_off (- (400)) 400 (map q (seq 0 n))) as (m & Em & Om & Rm);
      [destruct n; [congruence|discriminate]|now rewrite Hlen|lia|lia|lia|exact Hr|].
    rewrite Hlen in Em, Om. rewrite Hmap in Hd. fold f0 in Em. rewrite Em in Hd. subst d.
    assert (Hm0 : 0 <= m) by (eapply ranged_nonneg; eauto). pose proof (approx_false m Ha Hm0) as Hmpos.
    assert (Pn : 0 < nq n) by (unfold nq; change 0 with (inject_Z 0); rewrite <- Zlt_Qlt; lia).
    assert (Emu : qsum (map q (seq 0 n)) / nq n == mu).
    { unfold mu. rewrite <- (sum_to_qsum n q 0). reflexivity. }
    assert (Om' : off (n + 1) mu m) by (eapply off_proper; [exact Emu|reflexivity|exact Om]).
    assert (Hmu : 0 < mu). { apply off_pos with (n + 1)%nat m; [lra|]. now apply off_sym. }
    split; auto. split; [eauto|]. intros e He. specialize (Hy e He). destruct (Hq e He) as [_ Hu]. apply usual_ranged in Hu.
    unfold rdiv in Hy. rewrite fdiv_fin in Hy by lra.
    assert (Hre : ranged (- (400) - 451) (400 - - (450)) (q e / m)) by (apply ranged_div; auto; lra).
    destruct (ieee_step (- (400) - 451) (400 - - (450)) (q e / m)) as (z & Ez & Oz & Rz); [lia|lia|auto|].
    rewrite Ez in Hy. pose proof (ranged_nonneg _ _ _ Hu) as Hq0. pose proof (ranged_nonneg _ _ _ Rz) as Hz0.
    assert (Oe : off (n + 2) (q e / mu) z).
    { replace (n + 2)%nat with (0 + (n + 1) + 1)%nat by lia. apply off_trans with (q e / m); auto. apply off_div; auto; try lra.
      apply off_refl. auto. }
    unfold rclamp in Hy. destruct (rapprox_eq ieee (Fin z) f0) eqn:Ea.
    - exists abs64. split; [rewrite <- (rABS_64 ieee ieee_64); auto|]. fold abs64. split; [lra|]. right. split; [reflexivity|].
      destruct Oe as [A _]. pose proof (approx_true z Ea Hz0). pose proof (powH_ge1 (n + 2)).
      apply Qle_trans with (z * pow H64 (n + 2)); auto. apply Qmult_le_compat_r; lra.
    - exists z. split; auto. pose proof (approx_false z Ea Hz0). split; auto.
      assert (rnd64 ABSQ <= 7 # 5000000) by (apply by_le; vm_compute; reflexivity). lra.
  Qed.
End Normalize.
