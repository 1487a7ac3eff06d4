(** What an update of the balanced metric in binary64 leaves can be updated again *)
From Coq Require Import String List Bool Arith ZArith QArith Qabs Qround Lia Lqa.
From Verif Require Import Base F64 Lib ModelUnits ModelConfig ModelGraph ModelBuild ModelBalancing ModelRounded ModelRoundedHeap ModelRoundedMetrics
  Spec SpecRounded SpecRoundedHeap SpecRoundedMetrics SpecBalancing ProofMetrics ProofRounded ProofRounding64 ProofCompare64 ProofFactor64
  ProofRoundedMetrics ProofMonotone64 ProofBalancing ProofRoundedUpdate ProofRoundedUpdate2.
Import ListNotations.
Open Scope list_scope.
Open Scope Q_scope.

(** a sum isn't less than its summands, up to their rounding *)
Lemma radd_sum_down hi l : forall s j s', (- (1074) <= hi)%Z -> (hi + 53 <= 1000)%Z -> (Z.of_nat (j + length l) <= 2 ^ 53)%Z ->
  Forall (fun q => 0 <= q /\ q <= B hi) l -> 0 <= s -> s <= nq j * B hi -> rnd64 s == s ->
  fold_left (radd ieee) (map Fin l) (Fin s) = Fin s' -> s <= s' /\ forall q, In q l -> rnd64 q <= s'.
Proof.
  induction l as [|q l IH]; intros s j s' H1 H2 Hj Hl Hs Hb Hr; simpl.
  - intros E. injection E as <-. split; [lra|]. intros q [].
  - inversion Hl as [|q' l' [Hq0 Hq] Hl']; subst. simpl in Hj. unfold radd at 2. cbn [fadd].
    pose proof (B_pos hi) as P.
    assert (Hle : s + q <= nq (S j) * B hi) by (rewrite nq_S; lra).
    assert (Hn : nq (S j) <= B 53) by (apply nq_le_B; lia).
    assert (Hle' : s + q <= B (53 + hi)). { rewrite B_plus. assert (nq (S j) * B hi <= B 53 * B hi) by (apply Qmult_le_compat_r; lra). lra. }
    destruct (ieee_up (53 + hi) (s + q)) as (E & E0 & _); [lia|lia|lra|auto|]. rewrite E. intros F.
    assert (G : rnd64 (s + q) <= s' /\ forall q, In q l -> rnd64 q <= s').
    { apply (IH (rnd64 (s + q)) (S j)); auto; [lia| |apply representable_fix, rnd64_representable].
      apply mono64 in Hle. rewrite (representable_fix (nq (S j) * B hi)) in Hle; auto.
      exists (Z.of_nat (S j)), hi. split; [lia|]. split; [lia|]. reflexivity. }
    destruct G as [G1 G2]. assert (K1 : rnd64 s <= rnd64 (s + q)) by (apply mono64; lra). assert (K2 : rnd64 q <= rnd64 (s + q)) by (apply mono64; lra).
    split; [lra|]. intros y [<-|Hy]; [lra|auto].
Qed.

(** no number is larger than their mean times twice their count *)
Lemma rmean_down zs m2 q : (0 < length zs)%nat -> countable (length zs) -> Forall (fun q => 0 <= q /\ q <= B 460) zs ->
  rmean ieee (map Fin zs) = Fin m2 -> (7 # 5000000) <= m2 -> In q zs -> q <= 2 * nq (length zs) * m2.
Proof.
  intros Hne Hn Hz Em Hm Hq. unfold countable in Hn. unfold rmean in Em. rewrite map_length in Em.
  destruct (radd_sum_up 460 zs 0 0) as (s & Es & S0 & S1); [lia|lia|simpl; lia|auto|lra|change (nq 0) with 0; lra|].
  destruct (radd_sum_down 460 zs 0 0 s) as (_ & D); [lia|lia|simpl; lia|auto|lra|change (nq 0) with 0; lra|rewrite rnd64_zero; reflexivity|exact Es|].
  specialize (D q Hq). unfold f0 in Em. rewrite Es in Em. unfold rof_nat, of_nat in Em. fold (nq (length zs)) in Em.
  destruct (whole_fix (nq (length zs)) (length zs)) as [E1 E2]; [lia|reflexivity|]. rewrite E1 in Em. pose proof (nq_pos _ Hne) as Pn.
  unfold rdiv in Em. rewrite fdiv_fin in Em by lra.
  set (n := nq (length zs)) in *. set (r := rnd64 n) in *.
  assert (N1 : 1 <= n) by (unfold n, nq; change 1 with (inject_Z 1); rewrite <- Zle_Qle; lia).
  assert (N2 : n <= B 50) by (apply nq_le_B; lia).
  rewrite Forall_forall in Hz. destruct (Hz q Hq) as [Q0 Q1].
  assert (Small : B (- (1000)) <= (7 # 5000000)) by (apply by_le; vm_compute; reflexivity).
  assert (Nm : m2 <= n * m2). { assert (0 <= (n - 1) * m2) by (apply Qmult_le_0_compat; lra). lra. }
  destruct (Qlt_le_dec q (B (- (900)))) as [L|L].
  { assert (B (- (900)) <= (7 # 5000000)) by (apply by_le; vm_compute; reflexivity). lra. }
  assert (X : B (- (1022)) <= B (- (900))) by (apply B_mono; lia).
  destruct (rnd64_off q Q0) as [O1 _]; [right; lra|].
  destruct (ieee_up 513 (s / r)) as (A & C & _); [lia|lia|apply Qle_shift_div_l; lra| |].
  { apply Qle_shift_div_r; [lra|]. simpl Nat.add in S1. fold n in S1. replace 513%Z with (53 + 460)%Z by lia. rewrite B_plus. pose proof (B_pos 460).
    assert (1 <= B 53) by (apply by_le; vm_compute; reflexivity).
    assert (0 <= (B 53 - 1) * (B 460 * n)) by (apply Qmult_le_0_compat; [lra|apply Qmult_le_0_compat; lra]). rewrite E2. lra. }
  rewrite A in Em. injection Em as Em.
  assert (Hh : pow H64 1 * pow H64 1 <= 2) by (apply by_le; vm_compute; reflexivity).
  pose proof (powH_ge1 1) as Hh1. remember (pow H64 1) as h eqn:Eh.
  assert (Ps : 0 < s). { destruct (Qlt_le_dec 0 s) as [K|K]; auto. exfalso. pose proof (B_pos (- (900))). assert (0 <= (- rnd64 q) * h) by (apply Qmult_le_0_compat; lra). lra. }
  assert (Sh : q <= s * h). { assert (0 <= (s - rnd64 q) * h) by (apply Qmult_le_0_compat; lra). lra. }
  assert (Sr : s / r == s / n) by (rewrite E2; reflexivity).
  assert (Nn : n * (s / n) == s) by (field; lra).
  assert (Low : B (- (1022)) <= s / r).
  { rewrite Sr. apply Qle_shift_div_l; [lra|]. 
    assert (B (- (1022)) * B 50 <= B (- (902))) by (rewrite <- B_plus; apply B_mono; lia).
    assert (4 * B (- (902)) == B (- (900))) by (replace (- (900))%Z with (2 + - (902))%Z by lia; rewrite (B_plus 2); change (B 2) with (4 # 1); reflexivity).
    assert (0 <= B (- (1022)) * (B 50 - n)) by (apply Qmult_le_0_compat; [apply Qlt_le_weak, B_pos|lra]).
    assert (h <= 2). { assert (0 <= h * (h - 1)) by (apply Qmult_le_0_compat; lra). lra. }
    assert (0 <= s * (2 - h)) by (apply Qmult_le_0_compat; lra). pose proof (B_pos (- (902))). lra. }
  destruct (rnd64_off (s / r)) as [O2 _]; [pose proof (B_pos (- (1022))); lra|right; exact Low|]. rewrite <- Eh in O2.
  rewrite Em, Sr in O2.
  assert (K : s <= n * (m2 * h)). { rewrite <- Nn at 1. assert (0 <= n * (m2 * h - s / n)) by (apply Qmult_le_0_compat; lra). lra. }
  assert (0 <= (n * (m2 * h) - s) * h) by (apply Qmult_le_0_compat; lra).
  assert (0 <= (n * m2) * (2 - h * h)) by (apply Qmult_le_0_compat; [apply Qmult_le_0_compat; lra|lra]). lra.
Qed.

Section Again.
  Variables (g : graph) (ws : list nat) (bc : balancing_cfg) (iteration mi : nat) (old : nat -> Q) (g' : graph).
  Hypothesis U : updates g ws bc iteration mi old.
  Hypothesis Eu : rupdate_new_metric ieee iteration ws bc g = (Ok tt, g').

  (** the value of an edge is at most twice the number of edges *)
  Lemma again_bounded : exists new, forall e, (e < length ws)%nat ->
    metric_of g' e mi = Some (Fin (new e)) /\ 0 <= new e /\ new e <= 2 * nq (length ws) /\ representable (new e).
  Proof.
    destruct (update_64 g ws bc iteration mi old U) as [(msg & E)|(g'' & m & m2 & zs & E & _ & _ & _ & _ & Hm2 & _ & E2 & Lz & Hz & _)];
      rewrite Eu in E; inversion E; subst g''. clear E.
    destruct U as [_ _ Hsome Hcount _ _ _ _ _ _].
    assert (Fz : Forall (fun q => 0 <= q /\ q <= B 460) zs).
    { apply Forall_forall. intros q Hq. apply In_nth with (d := 0) in Hq. destruct Hq as (e & He & <-). rewrite Lz in He.
      destruct (Hz e He) as (_ & _ & A & C & _). auto. }
    exists (fun e => rnd64 (nth e zs 0 / m2)). intros e He. destruct (Hz e He) as (_ & _ & _ & _ & A & C).
    split; [exact A|]. split; [exact C|]. split; [|apply rnd64_representable].
    assert (In (nth e zs 0) zs) by (apply nth_In; lia).
    pose proof (rmean_down zs m2 (nth e zs 0) ltac:(lia) ltac:(rewrite Lz; exact Hcount) Fz E2 Hm2 H) as D. rewrite Lz in D.
    assert (Hq : nth e zs 0 / m2 <= 2 * nq (length ws)) by (apply Qle_shift_div_r; lra).
    apply mono64 in Hq. rewrite (representable_fix (2 * nq (length ws))) in Hq; [exact Hq|].
    unfold countable in Hcount. exists (2 * Z.of_nat (length ws))%Z, 0%Z. split; [lia|]. split; [lia|].
    change (Qpower (2 # 1) 0) with 1. unfold nq. rewrite inject_Z_mult. change (inject_Z 2) with 2. ring.
  Qed.

  Lemma again_means : forall mu, means g' = Some mu -> (mi < length mu)%nat.
  Proof.
    intros mu' Hmu'. pose proof U as U'. destruct U' as [Hat _ _ _ _ _ _ Hmeans _ _].
    destruct (update_64 g ws bc iteration mi old U) as [(msg & E)|(g'' & m & m2 & zs & E & _ & _ & _ & _ & _ & _ & _ & _ & _ & _ & _ & S3)];
      rewrite Eu in E; inversion E; subst g''. clear E.
    destruct (means g) as [mu|] eqn:Emu.
    - destruct (S3 mu eq_refl) as (mu2 & A & C). rewrite A in Hmu'. injection Hmu' as <-. apply nth_error_Some. congruence.
    - exfalso. unfold rupdate_new_metric in Eu. destruct (rnew_metric_values _ _ _ _ _) as [[[a b] c]| | |]; try discriminate.
      rewrite Emu in Eu. destruct (write_metrics _ _ _ _) as [r ms]. injection Eu as _ <-. discriminate.
  Qed.

  Lemma again_updates : exists new,
    (forall e, (e < length ws)%nat -> metric_of g' e mi = Some (Fin (new e)) /\ 0 <= new e /\ new e <= 2 * nq (length ws)) /\
    forall ws' iteration', length ws' = length ws -> (Z.of_nat (list_sum ws') <= 2 ^ 53)%Z -> countable iteration' ->
      updates g' ws' bc iteration' mi new.
  Proof.
    destruct again_bounded as (new & Hnew). exists new. split; [intros e He; destruct (Hnew e He) as (A & C & D & _); auto|].
    intros ws' it' Hl Ht Hi. pose proof again_means as Hmu. pose proof U as U'. destruct U' as [Hat Hlen Hsome Hcount _ _ _ _ Hc Hf].
    destruct (update_64 g ws bc iteration mi old U) as [(msg & E)|(g'' & m & m2 & zs & E & _ & _ & _ & _ & _ & _ & _ & _ & _ & [S1 _] & S2 & _)];
      rewrite Eu in E; inversion E; subst g''. clear E.
    constructor; auto.
    - unfold metric_at in *. unfold same_network in S2. rewrite <- S2 in Hat. exact Hat.
    - congruence.
    - now rewrite Hl.
    - now rewrite Hl.
    - intros e He. rewrite Hl in He. destruct (Hnew e He) as (A & C & D & R). split; auto. split; auto. split; auto.
      unfold countable in Hcount. assert (nq (length ws) <= B 50) by (apply nq_le_B; lia).
      assert (2 * B 50 <= Qpower (2 # 1) 400) by (apply by_le; vm_compute; reflexivity). lra.
  Qed.
End Again.

(** *** With a minimum, no update is rejected *)

(** a sum of numbers not below a power of two *)
Lemma radd_sum_low lo hi l : forall s j s', (- (1074) <= lo)%Z -> (- (1074) <= hi)%Z -> (hi + 53 <= 1000)%Z -> (Z.of_nat (j + length l) <= 2 ^ 53)%Z ->
  Forall (fun q => 0 <= q /\ q <= B hi) l -> Forall (fun q => B lo <= q) l -> 0 <= s -> s <= nq j * B hi -> nq j * B lo <= s ->
  fold_left (radd ieee) (map Fin l) (Fin s) = Fin s' -> nq (j + length l) * B lo <= s'.
Proof.
  induction l as [|q l IH]; intros s j s' H0 H1 H2 Hj Hl Hlo Hs Hb Hd; simpl.
  - intros E. injection E as <-. rewrite Nat.add_0_r. exact Hd.
  - inversion Hl as [|q' l' [Hq0 Hq] Hl']; subst. inversion Hlo as [|q' l' Hq1 Hlo']; subst. simpl in Hj. unfold radd at 2. cbn [fadd].
    pose proof (B_pos hi) as P.
    assert (Hle : s + q <= nq (S j) * B hi) by (rewrite nq_S; lra).
    assert (Hge : nq (S j) * B lo <= s + q) by (rewrite nq_S; lra).
    assert (Hn : nq (S j) <= B 53) by (apply nq_le_B; lia).
    assert (Hle' : s + q <= B (53 + hi)). { rewrite B_plus. assert (nq (S j) * B hi <= B 53 * B hi) by (apply Qmult_le_compat_r; lra). lra. }
    destruct (ieee_up (53 + hi) (s + q)) as (E & E0 & _); [lia|lia|lra|auto|]. rewrite E. intros F.
    assert (R : forall k, (- (1074) <= k)%Z -> rnd64 (nq (S j) * B k) == nq (S j) * B k).
    { intros k Hk. apply representable_fix. exists (Z.of_nat (S j)), k. split; [lia|]. split; [lia|]. reflexivity. }
    replace (j + S (length l))%nat with (S j + length l)%nat by lia.
    apply (IH (rnd64 (s + q)) (S j) s'); auto; [lia| |].
    + apply mono64 in Hle. now rewrite R in Hle.
    + apply mono64 in Hge. now rewrite R in Hge.
Qed.
Lemma rmean_low lo zs m2 : (- (1074) <= lo)%Z -> (0 < length zs)%nat -> countable (length zs) -> Forall (fun q => 0 <= q /\ q <= B 460) zs ->
  Forall (fun q => B lo <= q) zs -> rmean ieee (map Fin zs) = Fin m2 -> B lo <= m2.
Proof.
  intros Hlo Hne Hn Hz Hl Em. unfold countable in Hn. unfold rmean in Em. rewrite map_length in Em.
  destruct (radd_sum_up 460 zs 0 0) as (s & Es & S0 & S1); [lia|lia|simpl; lia|auto|lra|change (nq 0) with 0; lra|].
  pose proof (radd_sum_low lo 460 zs 0 0 s Hlo ltac:(lia) ltac:(lia) ltac:(simpl; lia) Hz Hl ltac:(lra) ltac:(change (nq 0) with 0; lra) ltac:(change (nq 0) with 0; lra) Es) as D.
  unfold f0 in Em. rewrite Es in Em. unfold rof_nat, of_nat in Em. fold (nq (length zs)) in Em.
  destruct (whole_fix (nq (length zs)) (length zs)) as [E1 E2]; [lia|reflexivity|]. rewrite E1 in Em. pose proof (nq_pos _ Hne) as Pn.
  unfold rdiv in Em. rewrite fdiv_fin in Em by lra. simpl Nat.add in *.
  set (n := nq (length zs)) in *. set (r := rnd64 n) in *.
  assert (N1 : 1 <= n) by (unfold n, nq; change 1 with (inject_Z 1); rewrite <- Zle_Qle; lia).
  destruct (ieee_up 513 (s / r)) as (A & C & _); [lia|lia|apply Qle_shift_div_l; lra| |].
  { apply Qle_shift_div_r; [lra|]. replace 513%Z with (53 + 460)%Z by lia. rewrite B_plus. pose proof (B_pos 460).
    assert (1 <= B 53) by (apply by_le; vm_compute; reflexivity).
    assert (0 <= (B 53 - 1) * (B 460 * n)) by (apply Qmult_le_0_compat; [lra|apply Qmult_le_0_compat; lra]). rewrite E2. lra. }
  rewrite A in Em. injection Em as <-. apply mono64_at; [|apply rnd64_pow2; auto].
  apply Qle_shift_div_l; [lra|]. rewrite E2. lra.
Qed.

Lemma write_no_err mi news : forall e ms msg, fst (write_metrics mi e news ms) <> Err msg.
Proof.
  induction news as [|x news IH]; intros e ms msg; simpl; [discriminate|].
  destruct (do v <- idx ms e; _); simpl; try discriminate. apply IH.
Qed.
Lemma acc_19 : accuracy64 <= B (- (19)). Proof. apply by_le. vm_compute. reflexivity. Qed.
Lemma approx_big a : B (- (19)) <= a -> rapprox_eq ieee (Fin a) f0 = false.
Proof.
  intros Ha. apply (proj2 (rapprox_eq_64 ieee a 0 (or_intror eq_refl))). pose proof acc_19 as Acc. pose proof (B_pos (- (19))).
  revert Acc. generalize accuracy64. intros q Acc. rewrite Qabs_pos by lra. lra.
Qed.
Lemma approx_le_big a : B (- (19)) <= a -> rapprox_le ieee (Fin a) f0 = false.
Proof.
  intros Ha. unfold rapprox_le, rapprox_cmp. rewrite (approx_big a Ha). unfold f0, fcmp. pose proof (B_pos (- (19))).
  destruct (Qcompare_spec a 0); try reflexivity; exfalso; lra.
Qed.
Lemma mean_load n s : (0 < n)%nat -> (Z.of_nat n <= 2 ^ 19 * Z.of_nat s)%Z -> B (- (19)) <= rnd64 (nq s / nq n).
Proof.
  intros Hn Hload. apply mono64_at; [|apply rnd64_pow2; lia]. pose proof (nq_pos _ Hn). apply Qle_shift_div_l; [auto|].
  assert (nq n <= B 19 * nq s).
  { rewrite B_nat by lia. unfold nq. rewrite <- inject_Z_mult, <- Zle_Qle. exact Hload. }
  pose proof (B_inv 19) as Hi. pose proof (B_pos (- (19))) as Hp. generalize dependent (B 19). intros b Hb Hi.
  assert (0 <= B (- (19)) * (b * nq s - nq n)) by (apply Qmult_le_0_compat; lra).
  setoid_replace (nq s) with (b * B (- (19)) * nq s) by (rewrite Hi; ring). lra.
Qed.
Lemma err_values iteration ws bc g g' msg : rupdate_new_metric ieee iteration ws bc g = (Err msg, g') ->
  exists msg', rnew_metric_values ieee iteration ws bc g = Err msg'.
Proof.
  unfold rupdate_new_metric. destruct (rnew_metric_values _ _ _ _ _) as [[[a b] c]|msg'| |]; try discriminate; [|eauto].
  intros L. exfalso. destruct (match means g with None => _ | Some _ => _ end) as [mu| | |]; try discriminate.
  destruct (write_metrics _ _ _ _) as [r ms] eqn:Ew. injection L as L1 _. subst r. apply (write_no_err _ _ _ _ _ (f_equal fst Ew)).
Qed.
Lemma update_accepted g ws bc iteration mi old k : updates g ws bc iteration mi old -> bc_min bc = Some (Fin k) -> B (- (19)) <= k ->
  (Z.of_nat (length ws) <= 2 ^ 19 * Z.of_nat (list_sum ws))%Z -> exists g', rupdate_new_metric ieee iteration ws bc g = (Ok tt, g').
Proof.
  intros U Hmin Hk Hload. pose proof (u_moderate _ _ _ _ _ _ U) as Hmod. pose proof U as U'. destruct U' as [Hat Hlen Hsome Hcount Htotal Hit Hold Hmeans Hc Hf].
  pose proof approx_big as Big.
  destruct (up_mean_64 ws Hcount Hsome Htotal) as (m & Em & Hm & M0 & M53).
  assert (Lm : B (- (19)) <= m).
  { rewrite Hm. now apply mean_load. }
  pose proof (Big m Lm) as E1. pose proof (approx_false m E1 M0) as Hm7.
  destruct (up_list_64 iteration ws bc old Hsome Htotal Hit Hmod m Em Hm7 Hc Hf) as (zs & El & Lz & Fz & Nz).
  destruct (up_mean2_64 iteration ws bc old Hcount Hsome Htotal Hit Hmod m Em Hm7 Hc Hf) as (m2 & E2 & M20 & M2h).
  assert (Lz2 : Forall (fun q => B (- (19)) <= q) zs).
  { apply Forall_forall. intros q Hq. apply In_nth with (d := 0) in Hq. destruct Hq as (e & He & <-). rewrite Lz in He.
    specialize (Nz e He). unfold up_floor in Nz. rewrite Hmin in Nz. destruct (rapprox_le _ _ _) eqn:Ele; [injection Nz as <-; exact Hk|].
    rewrite Nz in Ele. destruct (Qlt_le_dec k (nth e zs 0)) as [L|L]; [apply Qle_trans with k; [exact Hk|apply Qlt_le_weak; exact L]|]. rewrite (proj2 (rapprox_le_fin _ _)) in Ele; [discriminate|right; exact L]. }
  assert (L2 : B (- (19)) <= m2). { apply (rmean_low (- (19)) zs); [lia|rewrite Lz; exact Hsome|rewrite Lz; exact Hcount|exact Fz|exact Lz2|rewrite <- El; exact E2]. }
  destruct (up_shape ieee iteration ws bc g mi (fun e => Fin (old e)) Hat Hlen (fun e He => proj1 (Hold e He)) Hmeans) as [(msg & L)|(g' & Eu & _)]; [|eauto].
  exfalso. destruct (up_values ieee iteration ws bc g mi (fun e => Fin (old e)) Hat (fun e He => proj1 (Hold e He))) as (m1 & m1' & V).
  rewrite Em, E1, Hmin, E2, (approx_le_big m2 L2) in V. destruct (err_values _ _ _ _ _ _ L) as (msg' & V'). rewrite V' in V. discriminate V.
Qed.
