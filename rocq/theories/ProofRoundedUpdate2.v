(** Updating the balanced metric in binary64: what comes out *)
From Coq Require Import String List Bool Arith ZArith QArith Qabs Qround Lia Lqa.
From Verif Require Import Base F64 Lib ModelUnits ModelConfig ModelGraph ModelBuild ModelBalancing ModelRounded ModelRoundedHeap ModelRoundedMetrics
  Spec SpecRounded SpecRoundedHeap SpecRoundedMetrics SpecBalancing ProofMetrics ProofRounded ProofRounding64 ProofCompare64 ProofFactor64
  ProofRoundedMetrics ProofMonotone64 ProofBalancing ProofRoundedUpdate.
Import ListNotations.
Open Scope list_scope.
Open Scope Q_scope.

Lemma rapprox_le_fin a k : rapprox_le ieee (Fin a) (Fin k) = true <-> rapprox_eq ieee (Fin a) (Fin k) = true \/ a <= k.
Proof.
  unfold rapprox_le, rapprox_cmp. destruct (rapprox_eq ieee (Fin a) (Fin k)) eqn:E; clear E; [split; auto|].
  cbn [fcmp]. destruct (Qcompare_spec a k) as [H|H|H]; split; intros K; try reflexivity; try (right; lra).
  exfalso. destruct K as [K|K]; [inversion K|lra].
Qed.
Lemma rapprox_le_zero m : rapprox_le ieee (Fin m) f0 = false -> 0 <= m -> (7 # 5000000) <= m.
Proof.
  intros H Hm. apply approx_false; auto. destruct (rapprox_eq ieee (Fin m) f0) eqn:E; auto.
  unfold f0 in *. rewrite (proj2 (rapprox_le_fin m 0)) in H; [inversion H|left; exact E].
Qed.
Lemma up_floor_mono bc a b za zb : a <= b -> floors (bc_min bc) -> up_floor ieee bc (Fin a) = Fin za -> up_floor ieee bc (Fin b) = Fin zb -> za <= zb.
Proof.
  intros Hab Hf. unfold up_floor, floors in *. destruct (bc_min bc) as [mn|]; [|intros A C; inversion A; inversion C; subst; auto].
  destruct Hf as (k & -> & _).
  destruct (rapprox_le ieee (Fin a) (Fin k)) eqn:Ea; destruct (rapprox_le ieee (Fin b) (Fin k)) eqn:Eb;
    intros A C; inversion A; inversion C; subst; clear A C.
  - lra.
  - destruct (Qlt_le_dec zb za) as [L|L]; auto. rewrite (proj2 (rapprox_le_fin zb za)) in Eb; [inversion Eb|right; lra].
  - exfalso. destruct (Qlt_le_dec zb za) as [L|L].
    + apply rapprox_le_fin in Eb. destruct Eb as [Eb|Eb]; [|lra].
      assert (N : rapprox_le ieee (Fin za) (Fin zb) = true).
      { apply rapprox_le_fin. left. apply rapprox_eq_mono with (Fin b); [apply fle_fin; lra|apply fle_fin; lra|exact Eb]. }
      rewrite N in Ea. inversion Ea.
    + rewrite (proj2 (rapprox_le_fin za zb)) in Ea; [inversion Ea|right; lra].
  - auto.
Qed.

Lemma rnd_step lo hi q : (- (1022) <= lo)%Z -> (hi <= 1000)%Z -> ranged lo hi q -> off 1 q (rnd64 q) /\ ranged lo hi (rnd64 q).
Proof.
  intros H1 H2 Hr. destruct (ieee_step lo hi q H1 H2 Hr) as (r & E & A & C).
  rewrite ieee_fits in E; [injection E as <-; auto|]. pose proof (ranged_nonneg _ _ _ Hr). rewrite Qabs_pos by auto.
  apply B_mono in H2. destruct Hr as [Z|[_ Z]]; [pose proof (B_pos 1000)|]; lra.
Qed.

Section Update.
  Variables (g : graph) (ws : list nat) (bc : balancing_cfg) (iteration mi : nat) (old : nat -> Q).
  Hypothesis U : updates g ws bc iteration mi old.
  Let x := fun e => Fin (old e).

  Lemma u_moderate e : (e < length ws)%nat -> moderate (old e) /\ representable (old e).
  Proof. intros He. apply (u_old _ _ _ _ _ _ U e He). Qed.

  (** everything that is calculated *)
  Lemma update_64 :
    (exists msg, rupdate_new_metric ieee iteration ws bc g = (Err msg, g)) \/
    exists g' m m2 zs, rupdate_new_metric ieee iteration ws bc g = (Ok tt, g') /\
      m == rnd64 (nq (list_sum ws) / nq (length ws)) /\ (7 # 5000000) <= m /\ m <= B 53 /\
      up_mean ieee ws = Fin m /\
      (7 # 5000000) <= m2 /\ m2 <= B 513 /\ rmean ieee (map Fin zs) = Fin m2 /\ length zs = length ws /\
      (forall e, (e < length ws)%nat ->
         0 <= up_value iteration ws bc old m e /\
         up_floor ieee bc (Fin (up_value iteration ws bc old m e)) = Fin (nth e zs 0) /\
         0 <= nth e zs 0 /\ nth e zs 0 <= B 460 /\
         metric_of g' e mi = Some (Fin (rnd64 (nth e zs 0 / m2))) /\ 0 <= rnd64 (nth e zs 0 / m2)) /\
      same_other_metrics g g' mi /\ same_network g g' /\
      (forall mu, means g = Some mu -> exists mu', means g' = Some mu' /\ nth_error mu' mi = Some (Fin m2)).
  Proof.
    destruct U as [Hat Hlen Hsome Hcount Htotal Hit Hold Hmeans Hc Hf].
    destruct (up_shape ieee iteration ws bc g mi x Hat Hlen (fun e He => proj1 (Hold e He)) Hmeans)
      as [L|(g' & Eu & E1 & E2 & _ & Ey & S1 & S2 & S3)]; [left; exact L|right].
    destruct (up_mean_64 ws Hcount Hsome Htotal) as (m & Em & Hm & M0 & M53).
    rewrite Em in E1. pose proof (approx_false m E1 M0) as Hm7.
    pose proof (up_value_64 iteration ws bc old Hsome Htotal Hit u_moderate m Em Hm7) as Hv.
    destruct (up_list_64 iteration ws bc old Hsome Htotal Hit u_moderate m Em Hm7 Hc Hf) as (zs & El & Lz & Fz & Nz).
    destruct (up_mean2_64 iteration ws bc old Hcount Hsome Htotal Hit u_moderate m Em Hm7 Hc Hf) as (m2 & E2' & M20 & M2h).
    fold x in El, Nz, E2'. rewrite E2' in E2, Ey. pose proof (rapprox_le_zero m2 E2 M20) as Hm27.
    exists g', m, m2, zs. split; [exact Eu|]. split; [exact Hm|]. split; [exact Hm7|]. split; [exact M53|]. split; [exact Em|].
    split; [exact Hm27|]. split; [exact M2h|]. split; [rewrite <- El; exact E2'|]. split; [exact Lz|]. split.
    - intros e He. destruct (Hv e Hc He) as (V1 & V2 & V3). fold x in V1. specialize (Nz e He).
      assert (Hz : 0 <= nth e zs 0 /\ nth e zs 0 <= B 460).
      { rewrite Forall_forall in Fz. apply (Fz (nth e zs 0)). apply nth_In. lia. }
      split; auto. split; [rewrite <- V1; exact Nz|]. destruct Hz as [Z0 Z1]. split; auto. split; auto.
      specialize (Ey e He). rewrite Nz in Ey. unfold rdiv in Ey. rewrite fdiv_fin in Ey by lra.
      destruct (ieee_up 480 (nth e zs 0 / m2)) as (A & C & D); [lia|lia|apply Qle_shift_div_l; lra| |].
      + apply Qle_shift_div_r; [lra|]. replace 480%Z with (460 + 20)%Z by lia. rewrite B_plus.
        assert (1 <= B 20 * (7 # 5000000)) by (apply by_le; vm_compute; reflexivity).
        pose proof (B_pos 460). pose proof (B_pos 20). assert (0 <= B 20 * (m2 - (7 # 5000000))) by (apply Qmult_le_0_compat; lra).
        assert (0 <= B 460 * (B 20 * m2 - 1)) by (apply Qmult_le_0_compat; lra). lra.
      + rewrite A in Ey. split; [exact Ey|exact C].
    - split; [exact S1|]. split; [exact S2|]. intros mu Hmu. destruct (S3 mu Hmu) as (mu' & A & C). exists mu'. split; auto.
      rewrite E2' in C. exact C.
  Qed.

  Lemma up_rel_mono m a b : 0 < m -> (nth a ws 0 <= nth b ws 0)%nat -> up_rel ws m a <= up_rel ws m b.
  Proof.
    intros Hm H. unfold up_rel. apply mono64, div_le; auto. apply mono64. unfold nq. rewrite <- Zle_Qle. lia.
  Qed.
  Lemma up_value_mono m a b : 0 < m -> (a < length ws)%nat -> (b < length ws)%nat -> (nth a ws 0 <= nth b ws 0)%nat ->
    match bc_method bc with Averaging => old a <= old b | ExplicitEuler _ => old a == old b end ->
    up_value iteration ws bc old m a <= up_value iteration ws bc old m b.
  Proof.
    intros Hm Ha Hb Hl Ho. pose proof (up_rel_mono m a b Hm Hl) as R. unfold up_value. destruct U as [_ _ _ _ _ Hit _ _ Hc _].
    unfold corrects, countable in *. destruct (bc_method bc) as [c|].
    - destruct Hc as (k & -> & K0 & K1). apply mono64.
      assert (rnd64 (rnd64 (up_rel ws m a - old a) * k) <= rnd64 (rnd64 (up_rel ws m b - old b) * k)); [|lra].
      apply mono64. apply Qmult_le_compat_r; auto. apply mono64. lra.
    - destruct (whole_fix (nq iteration) iteration) as [_ E1]; [lia|reflexivity|].
      destruct (whole_fix (nq (iteration + 1)) (iteration + 1)) as [_ E2]; [lia|reflexivity|].
      apply mono64, div_le; [rewrite E2; apply nq_pos; lia|]. apply mono64.
      assert (rnd64 (rnd64 (nq iteration) * old a) <= rnd64 (rnd64 (nq iteration) * old b)); [|lra].
      apply mono64. rewrite !(Qmult_comm (rnd64 (nq iteration))). apply Qmult_le_compat_r; auto. rewrite E1. apply nq_nonneg.
  Qed.

  Lemma update_order g' a b ya yb :
    rupdate_new_metric ieee iteration ws bc g = (Ok tt, g') -> (a < length ws)%nat -> (b < length ws)%nat -> (nth a ws 0 <= nth b ws 0)%nat ->
    match bc_method bc with Averaging => old a <= old b | ExplicitEuler _ => old a == old b end ->
    metric_of g' a mi = Some (Fin ya) -> metric_of g' b mi = Some (Fin yb) -> ya <= yb.
  Proof.
    intros Eu Ha Hb Hl Ho Ya Yb. destruct update_64 as [(msg & E)|(g'' & m & m2 & zs & E & Hm & Hm7 & _ & _ & Hm2 & _ & _ & _ & Hz & _)];
      rewrite Eu in E; inversion E; subst g''. clear E Eu.
    destruct (Hz a Ha) as (_ & Fa & _ & _ & Ma & _). destruct (Hz b Hb) as (_ & Fb & _ & _ & Mb & _).
    rewrite Ma in Ya. rewrite Mb in Yb. injection Ya as <-. injection Yb as <-. apply mono64, div_le; [lra|].
    apply (up_floor_mono bc _ _ _ _ (up_value_mono m a b ltac:(lra) Ha Hb Hl Ho) (u_min _ _ _ _ _ _ U) Fa Fb).
  Qed.
End Update.

(** *** How far a step of averaging is off *)
Section Averaging.
  Variables (g : graph) (ws : list nat) (bc : balancing_cfg) (iteration mi : nat) (old : nat -> Q).
  Hypothesis U : updates g ws bc iteration mi old.
  Hypothesis Hav : bc_method bc = Averaging.
  Hypothesis Hmin : bc_min bc = None.
  Hypothesis Husual : forall e, (e < length ws)%nat -> usual (old e).

  Definition exact_rel (e : nat) : Q := nq (nth e ws 0%nat) * nq (length ws) / nq (list_sum ws).
  Definition exact_value (e : nat) : Q := (nq iteration * old e + exact_rel e) / nq (iteration + 1).

  Lemma nq_1 n : (0 < n)%nat -> 1 <= nq n.
  Proof. intros H. unfold nq. change 1 with (inject_Z 1). rewrite <- Zle_Qle. lia. Qed.

  Lemma qsum_off k (l l' : list Q) : Forall2 (off k) l l' -> off k (qsum l) (qsum l').
  Proof. induction 1 as [|a b l l' H F IH]; simpl; [apply off_refl; lra|apply off_plus; auto]. Qed.

  Lemma averaging_value m e : m == rnd64 (nq (list_sum ws) / nq (length ws)) -> (7 # 5000000) <= m -> (e < length ws)%nat ->
    off 4 (exact_value e) (up_value iteration ws bc old m e) /\ ranged (- (451)) 451 (up_value iteration ws bc old m e) /\ 0 <= exact_value e.
  Proof.
    intros Hm Hm7 He. destruct U as [_ _ Hsome Hcount Htotal Hit _ _ _ _]. unfold countable in *.
    assert (Hsum : (0 < list_sum ws)%nat).
    { destruct (list_sum ws) as [|s]; [|lia]. exfalso. assert (Z : rnd64 (nq 0 / nq (length ws)) == 0) by (rewrite rnd64_zero; [reflexivity|change (nq 0) with 0; field; pose proof (nq_pos _ Hsome); lra]).
      rewrite Z in Hm. lra. }
    pose proof (nq_1 _ Hsome) as N1. pose proof (nq_1 _ Hsum) as S1.
    assert (Rn : ranged 0 50 (nq (length ws))) by (apply whole_ranged; lia).
    assert (Rs : ranged 0 53 (nq (list_sum ws))) by (apply whole_ranged; lia).
    (* the mean *)
    assert (Rm' : ranged (0 - 50) (53 - 0) (nq (list_sum ws) / nq (length ws))) by (apply ranged_div; auto; lra).
    destruct (ieee_step (0 - 50) (53 - 0) (nq (list_sum ws) / nq (length ws))) as (m' & Em' & Om' & Rm''); [lia|lia|auto|].
    destruct (ieee_up 53 (nq (list_sum ws) / nq (length ws))) as (Em'' & _); [lia|lia| | |].
    { apply Qle_shift_div_l; lra. } { destruct Rm' as [Z|[_ Z]]; [pose proof (B_pos 53); lra|]. exact Z. }
    rewrite Em'' in Em'. injection Em' as E'. rewrite <- E' in Om', Rm''.
    assert (Om : off 1 (nq (list_sum ws) / nq (length ws)) m) by (eapply off_proper; [reflexivity|symmetry; exact Hm|exact Om']).
    assert (Rm : ranged (0 - 50) (53 - 0) m) by (eapply ranged_proper; [symmetry; exact Hm|exact Rm'']).
    clear Em'' E' Om' Rm'' m'.
    (* the workload *)
    pose proof (load_le ws Hsome Htotal e) as Hl. destruct (whole_fix (nq (nth e ws 0%nat)) _ Hl) as [_ El]; [reflexivity|].
    assert (Rl : ranged 0 53 (rnd64 (nq (nth e ws 0%nat)))) by (eapply ranged_proper; [symmetry; exact El|apply whole_ranged; lia]).
    pose proof (nq_nonneg (nth e ws 0%nat)) as L0.
    assert (Rq : ranged (- (400)) 450 (rnd64 (nq (nth e ws 0%nat)) / m)) by (eapply ranged_weaken; [| |apply ranged_div; [lra|exact Rl|exact Rm]]; lia).
    destruct (rnd_step (- (400)) 450 (rnd64 (nq (nth e ws 0%nat)) / m)) as [Or Rr]; [lia|lia|exact Rq|]. fold (up_rel ws m e) in Or, Rr.
    assert (Orel : off 2 (exact_rel e) (up_rel ws m e)).
    { change 2%nat with (1 + 1)%nat. apply off_trans with (rnd64 (nq (nth e ws 0%nat)) / m); auto.
      apply off_proper with (nq (nth e ws 0%nat) / (nq (list_sum ws) / nq (length ws))) (nq (nth e ws 0%nat) / m);
        [unfold exact_rel; field; split; lra|rewrite El; reflexivity|].
      change 1%nat with (0 + 1)%nat. apply off_div; auto; try lra.
      - apply Qlt_shift_div_l; lra.
      - apply off_refl. auto. }
    assert (R0 : 0 <= exact_rel e) by (unfold exact_rel; apply Qle_shift_div_l; [lra|]; rewrite Qmult_0_l; apply Qmult_le_0_compat; lra).
    (* the old value *)
    destruct (whole_fix (nq iteration) iteration) as [_ Ek]; [lia|reflexivity|].
    destruct (whole_fix (nq (iteration + 1)) (iteration + 1)) as [_ Ek']; [lia|reflexivity|].
    unfold up_value. rewrite Hav. set (k := rnd64 (nq iteration)) in *. set (k' := rnd64 (nq (iteration + 1))) in *.
    assert (Rk : ranged 0 50 k) by (eapply ranged_proper; [symmetry; exact Ek|apply whole_ranged; lia]).
    assert (Rk' : ranged 0 51 k') by (eapply ranged_proper; [symmetry; exact Ek'|apply whole_ranged; lia]).
    pose proof (nq_nonneg iteration) as K0. assert (K1 : 1 <= nq (iteration + 1)) by (apply nq_1; lia).
    pose proof (Husual e He) as Hu. apply usual_ranged in Hu. pose proof (ranged_nonneg _ _ _ Hu) as O0.
    assert (Rko : ranged (- (400)) 450 (k * old e)) by (eapply ranged_weaken; [| |apply ranged_mult; [exact Rk|exact Hu]]; lia).
    destruct (rnd_step (- (400)) 450 (k * old e)) as [Oo Ro]; [lia|lia|exact Rko|].
    assert (Oo' : off 2 (nq iteration * old e) (rnd64 (k * old e))).
    { apply off_weaken with 1%nat; [lia|apply Qmult_le_0_compat; auto|eapply ranged_nonneg; eauto|].
      eapply off_proper; [|reflexivity|exact Oo]. now rewrite Ek. }
    pose proof (ranged_plus _ _ _ _ Ro Rr) as Rp. destruct (rnd_step (- (400)) (450 + 1) (rnd64 (k * old e) + up_rel ws m e)) as [Op Rp']; [lia|lia|exact Rp|].
    assert (Op' : off 3 (nq iteration * old e + exact_rel e) (rnd64 (rnd64 (k * old e) + up_rel ws m e))).
    { change 3%nat with (2 + 1)%nat. eapply off_trans; [|exact Op]. apply off_plus; auto. }
    assert (Rd : ranged (- (451)) 451 (rnd64 (rnd64 (k * old e) + up_rel ws m e) / k')).
    { eapply ranged_weaken; [| |apply ranged_div; [lra|exact Rp'|exact Rk']]; lia. }
    destruct (rnd_step (- (451)) 451 (rnd64 (rnd64 (k * old e) + up_rel ws m e) / k')) as [Od Rd']; [lia|lia|exact Rd|].
    assert (P0 : 0 <= nq iteration * old e) by (apply Qmult_le_0_compat; auto).
    split; [|split; [exact Rd'|]].
    - change 4%nat with (3 + 0 + 1)%nat. eapply off_trans; [|exact Od]. unfold exact_value. apply off_div; auto; try lra.
      + eapply ranged_nonneg; eauto.
      + eapply off_proper; [reflexivity|symmetry; exact Ek'|]. apply off_refl. lra.
    - unfold exact_value. apply Qle_shift_div_l; lra.
  Qed.

  Lemma averaging_off g' : rupdate_new_metric ieee iteration ws bc g = (Ok tt, g') ->
    let n := length ws in let mean := sum_to n exact_value / nq n in
    0 < mean /\ (forall mu, means g = Some mu -> exists m, metric_mean g' mi = Ok (Some (Fin m)) /\ off (n + 5) mean m) /\
    forall e, (e < n)%nat -> exists y, metric_of g' e mi = Some (Fin y) /\ off (n + 10) (exact_value e / mean) y.
  Proof.
    intros Eu n mean. destruct (update_64 g ws bc iteration mi old U) as [(msg & E)|(g'' & m & m2 & zs & E & Hm & Hm7 & _ & _ & Hm2 & _ & E2 & Lz & Hz & _ & _ & Hmu)];
      rewrite Eu in E; inversion E; subst g''. clear E Eu.
    assert (Hzs : forall e, (e < n)%nat -> nth e zs 0 = up_value iteration ws bc old m e).
    { intros e He. destruct (Hz e He) as (_ & F & _). unfold up_floor in F. rewrite Hmin in F. injection F as F. auto. }
    assert (Hr : forall e, (e < n)%nat -> off 4 (exact_value e) (nth e zs 0) /\ ranged (- (451)) 451 (nth e zs 0) /\ 0 <= exact_value e).
    { intros e He. rewrite Hzs by auto. apply averaging_value; auto. }
    pose proof (u_count _ _ _ _ _ _ U) as Hcount. unfold countable in Hcount. fold n in Hcount, Lz. pose proof (u_some _ _ _ _ _ _ U) as Hsome. fold n in Hsome.
    destruct (rmean_off (- (451)) 451 zs) as (m2' & E2' & O2 & R2); [intros ->; simpl in Lz; lia|now rewrite Lz|lia|lia|lia| |].
    { apply Forall_forall. intros q Hq. apply (In_nth _ _ 0) in Hq. destruct Hq as (e & He & <-). apply Hr. lia. }
    unfold rmean in E2. rewrite map_length in E2. fold f0 in E2'. rewrite E2' in E2. injection E2 as E2. rewrite E2 in *. clear E2 m2' E2'.
    rewrite Lz in O2.
    assert (Os : off 4 (sum_to n exact_value) (qsum zs)).
    { eapply off_proper; [symmetry; apply (sum_to_qsum n exact_value 0)|reflexivity|]. apply qsum_off.
      assert (G : forall k s l, length l = k -> (forall e, (e < k)%nat -> off 4 (exact_value (s + e)%nat) (nth e l 0)) -> Forall2 (off 4) (map exact_value (seq s k)) l).
      { induction k as [|k IH]; intros s [|z l] HL HH; simpl in HL; try discriminate; constructor.
        - specialize (HH 0%nat ltac:(lia)). rewrite Nat.add_0_r in HH. exact HH.
        - apply IH; [lia|]. intros e He. specialize (HH (S e) ltac:(lia)). now replace (S s + e)%nat with (s + S e)%nat by lia. }
      apply G; auto. intros e He. apply Hr. auto. }
    pose proof (nq_pos n Hsome) as Pn.
    assert (Hq0 : 0 <= qsum zs). { apply qsum_nonneg. apply Forall_forall. intros q Hq. apply (In_nth _ _ 0) in Hq. destruct Hq as (e & He & <-). apply (Hz e). fold n. lia. }
    assert (Hs0 : 0 <= sum_to n exact_value).
    { assert (G : forall k, (k <= n)%nat -> 0 <= sum_to k exact_value); [|apply G; lia].
      induction k as [|k IH]; intros Hk; simpl; [lra|]. destruct (Hr k ltac:(lia)) as (_ & _ & V). specialize (IH ltac:(lia)). lra. }
    assert (Om : off (n + 5) mean m2).
    { replace (n + 5)%nat with (4 + 0 + (n + 1))%nat by lia. apply off_trans with (qsum zs / nq n); auto.
      unfold mean. apply off_div; auto. apply off_refl. lra. }
    assert (Hmean : 0 < mean) by (apply off_pos with (n + 5)%nat m2; [lra|now apply off_sym]).
    split; auto. split.
    - intros mu Hm'. destruct (Hmu mu Hm') as (mu' & A & C). exists m2. split; auto. unfold metric_mean. rewrite A. unfold idx. rewrite C. reflexivity.
    - intros e He. destruct (Hz e He) as (_ & _ & Z0 & Z1 & Y & _). destruct (Hr e He) as (O4 & R4 & V0).
      exists (rnd64 (nth e zs 0 / m2)). split; auto. replace (n + 10)%nat with (4 + (n + 5) + 1)%nat by lia.
      apply off_trans with (nth e zs 0 / m2); [apply off_div; auto; lra|].
      apply (rnd_step (- (451) - (451 + 51)) (451 - (- (451) - 50)) _ ltac:(lia) ltac:(lia)). apply ranged_div; auto. lra.
  Qed.
End Averaging.
