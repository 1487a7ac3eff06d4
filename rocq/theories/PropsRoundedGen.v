(** C67: metrics generated in f64 *)
From Coq Require Import String List Bool Arith ZArith QArith Qabs Lia Lqa.
From Verif Require Import Base F64 Lib ProofNodes ProofBuild ModelUnits ModelConfig ModelGraph ModelBuild ModelRounded ModelRoundedHeap ModelRoundedMetrics ModelRoundedBuild
  Spec SpecGenerate SpecRounded SpecRoundedHeap SpecRoundedBuild SpecRoundedGen Examples ProofGraph ProofGenerate ProofRounding64 ProofRoundedUpdate
  ProofRoundedBuild ProofRoundedBuild2 ProofRoundedGen PropsGenerate PropsRoundedHeap PropsRoundedBuild.
Import ListNotations.
Open Scope string_scope.
Open Scope list_scope.
Open Scope nat_scope.

(** A build: starting with the inserted metrics, one step per category, each
    according to its formula with a rounded result; then possibly normalizing
    (C64).  The description is aligned at the end. *)
Theorem C67_generated uc hav c ch1 ch2 es ns g :
  1 <= ch1 -> 1 <= ch2 -> rbuild ieee uc hav c ch1 ch2 es ns = Ok g ->
  length (ec_ids (cfg_edges c)) = length (ec_units (cfg_edges c)) -> fitting_edges c es ->
  described g /\
  exists g0 g1, described g0 /\ described g1 /\ ids_of g0 = ec_ids (cfg_edges c) /\ units_of g0 = ec_units (cfg_edges c) /\
    edge_count g0 FWD = edge_count g FWD /\
    (forall e, e < edge_count g FWD -> exists pe ms, In pe es /\ same_ends g e pe /\
       edge_metrics g0 e = Ok ms /\ Forall2 (raised64 (rnd64 ABSQ)) (pe_metrics pe) ms) /\
    rounded_steps ieee uc hav g0 (cfg_gen_edges c) g1 /\
    ids_of g = ids_of g1 /\ units_of g = units_of g1 /\
    (if ec_normalized (cfg_edges c) then rnormalize ieee g1 = Ok g else g = g1).
Proof.
  intros H1 H2 E Hl Hf.
  destruct (rbuild_steps _ _ _ _ _ _ _ _ _ H1 H2 E Hl Hf) as (g0 & g1 & D0 & D1 & D & I & U & S & N & Ec & En & C & He).
  split; [now apply desc_described|]. exists g0, g1. split; [now apply desc_described|]. split; [now apply desc_described|].
  split; [exact I|]. split; [exact U|]. split; [exact C|]. split.
  { intros e L. destruct (He e L) as (pe & Hpe & Hs & Hm). exists pe, (map (rclamp ieee) (pe_metrics pe)). split; [exact Hpe|]. split; [exact Hs|]. split; [exact Hm|].
    generalize (rnd64 ABSQ) clamp_raised (pe_metrics pe). intros least K ms. induction ms as [|m ms IH]; cbn [map]; constructor; [apply K|exact IH]. }
  split; [exact S|]. unfold ids_of, units_of. rewrite Ec. split; [reflexivity|]. split; [reflexivity|].
  destruct (ec_normalized (cfg_edges c)) eqn:Q; [exact N|]. unfold rnormalize in N. rewrite En in N. now injection N.
Qed.
Print Assumptions C67_generated.

(** kissunits multiplies and divides *)
Definition times (u v : unit_info) (x : f64) : f64 :=
  match u, v with
  | Kilometers, Meters => rmul ieee x (fz 1000)
  | Hours, Minutes | Minutes, Seconds => rmul ieee x (fz 60)
  | Hours, Seconds => rmul ieee x (fz 3600)
  | Meters, Kilometers => rdiv ieee x (fz 1000)
  | Minutes, Hours | Seconds, Minutes => rdiv ieee x (fz 60)
  | Seconds, Hours => rdiv ieee x (fz 3600)
  | _, _ => x
  end.
Example C67_generated_case : exists g, rbuild ieee times ex_hav (gen_cfg all_gens) 2 3 ex_es ex_ns = Ok g /\ fitting_edges (gen_cfg all_gens) ex_es /\
  ids_of g = ["km"; "speed"; "hav"; "min"; "m"] /\ edge_count g FWD = 4 /\
  match edge_metrics g 2 with
  | Ok [Fin a; Fin b; Fin c; Fin m; Fin d] => Qeq_bool m (rnd64 (60 * rnd64 (3 # 50))) && negb (Qeq_bool m (18 # 5)) = true
  | _ => False
  end.
Proof.
  eexists. split; [vm_compute; reflexivity|]. split; [apply ex_fitting|]. split; [reflexivity|]. split; [reflexivity|]. vm_compute. reflexivity.
Qed.

(** no build creates an id twice *)
Theorem C67_duplicate uc hav c ch1 ch2 es ns gc id g :
  1 <= ch1 -> 1 <= ch2 -> In gc (cfg_gen_edges c) -> creates gc id -> parsed_id c id ->
  rbuild ieee uc hav c ch1 ch2 es ns <> Ok g.
Proof.
  intros L1 L2 H1 H2 H3 E. unfold rbuild, rfinalize in E. apply bind_ok in E. destruct E as (b & Eb & E). apply bind_ok in E. destruct E as (gc' & E0 & E).
  apply bind_ok in E. destruct E as (g1 & E1 & _). destruct (insert_nodes_total es _ ns (nb_inv_init es)) as (b' & Eb' & Hb').
  rewrite Eb in Eb'. injection Eb' as <-. destruct (rcore_size ieee es b c ch1 ch2 gc' L1 L2 Hb' E0) as (_ & _ & Hc).
  unfold rgenerate in E1. rewrite Hc in E1. apply bind_ok in E1. destruct E1 as (c' & Ec & E1). destruct (gen_node_edges _ _ _ Ec) as [Q _].
  rewrite Q, (dup_found _ _ _ H1 H2 H3) in E1. discriminate.
Qed.
Print Assumptions C67_duplicate.
Example C67_duplicate_case : creates (GCustom UF64 "km" (Fin 1)) "km" /\ parsed_id (gen_cfg [GCustom UF64 "km" (Fin 1)]) "km".
Proof. split; [reflexivity|]. eexists. split; [right; right; left; reflexivity|]. right. eexists. reflexivity. Qed.

(** Calculated durations are those of exact arithmetic but for two units in the
    last place, if kissunits' conversions are off by one at most. *)
Theorem C67_duration uc ru x y z w : accurate_durations uc ->
  (0 <= x)%Q -> (0 < y)%Q -> (x / y <= inject_Z (2 ^ 900))%Q -> In ru [Seconds; Minutes; Hours] ->
  calculated_by ieee uc ru Kilometers (Fin x) KilometersPerHour (Fin y) z -> try_calc ru Kilometers (Fin x) KilometersPerHour (Fin y) = Ok (Fin w) ->
  exists q, z = Fin q /\ ((1 - 4 * u64) * w - Qpower (2 # 1) (- (1000)) <= q)%Q /\ (q <= (1 + 4 * u64) * w + Qpower (2 # 1) (- (1000)))%Q.
Proof.
  intros Hu Hx Hy Hb Hr (_ & Hz) Hw.
  assert (Ed : fdiv (Fin x) (Fin y) = Fin (x / y)%Q).
  { unfold fdiv. destruct (qsign y) eqn:S; auto. unfold qsign in S. apply Qeq_alt in S. lra. }
  assert (V0 : (0 <= x / y)%Q) by (apply Qle_shift_div_l; lra).
  set (v := (x / y)%Q) in *.
  destruct (ieee_up 900 v) as (E & E0 & E1); [lia|lia|exact V0|exact Hb|].
  pose proof (r_low _ _ _ rounding64 _ V0) as R1. pose proof (r_high _ _ _ rounding64 _ V0) as R2.
  assert (W : exists k, w = (v * inject_Z k)%Q /\ (k = 1 \/ k = 60 \/ k = 3600)%Z /\ seconds_of Hours = (k * seconds_of ru)%Z \/ w = v /\ ru = Hours).
  { unfold try_calc in Hw. rewrite Ed in Hw. destruct Hr as [<-|[<-|[<-|[]]]]; cbn [fmul fz] in Hw; injection Hw as <-.
    - exists 3600%Z. left. split; [reflexivity|]. split; [auto|reflexivity].
    - exists 60%Z. left. split; [reflexivity|]. split; [auto|reflexivity].
    - exists 1%Z. right. split; reflexivity. }
  assert (U0 : (0 <= u64)%Q) by (vm_compute; discriminate). assert (U1 : (u64 <= 1 # 1000)%Q) by (vm_compute; discriminate).
  assert (T0 : (8000 * eta64 <= Qpower (2 # 1) (- (1000)))%Q) by (vm_compute; discriminate). assert (T1 : (0 <= eta64)%Q) by (vm_compute; discriminate).
  rewrite Ed, E in Hz.
  assert (M : (0 <= u64 * v)%Q) by (now apply Qmult_le_0_compat).
  destruct Hz as [(_ & -> & ->)|[(_ & Hru & ->)|(Hf & _)]]; [| |discriminate].
  - exists (rnd64 v). split; [reflexivity|].
    assert (Ew : w = v). { unfold try_calc in Hw. rewrite Ed in Hw. now injection Hw as <-. } rewrite Ew. clear - R1 R2 U0 U1 T0 T1 V0 M.
    set (r := rnd64 v) in *. set (u := u64) in *. set (eta := eta64) in *. set (t := Qpower (2 # 1) (- (1000))) in *. clearbody r u eta t.
    assert (X1 : ((1 - 4 * u) * v == (1 - u) * v - 3 * (u * v))%Q) by ring. assert (X2 : ((1 + 4 * u) * v == (1 + u) * v + 3 * (u * v))%Q) by ring.
    rewrite X1, X2. set (m := (u * v)%Q) in *. set (a := ((1 - u) * v)%Q) in *. set (b := ((1 + u) * v)%Q) in *. split; lra.
  - destruct W as (k & [(-> & Hk & Hs)|(_ & ->)]); [|cbn in Hru; destruct Hru as [H|[H|[]]]; discriminate].
    destruct (Hu Hours ru (rnd64 v)) as (q & Eq & Q1 & Q2); [cbn; tauto|exact Hr|exact E0| |].
    { exact E1. }
    exists q. split; [exact Eq|].
    assert (F : (rnd64 v * inject_Z (seconds_of Hours) / inject_Z (seconds_of ru) == rnd64 v * inject_Z k)%Q).
    { rewrite Hs, inject_Z_mult. field. destruct Hru as [<-|[<-|[]]]; cbn; unfold Qeq; cbn; lia. }
    rewrite F in Q1, Q2. clear Eq F Hs E.
    assert (K0 : (0 <= inject_Z k)%Q) by (destruct Hk as [->|[->| ->]]; vm_compute; discriminate).
    assert (K1 : (inject_Z k <= 3600)%Q) by (destruct Hk as [->|[->| ->]]; vm_compute; discriminate).
    clear Hk. set (r := rnd64 v) in *. set (u := u64) in *. set (eta := eta64) in *. set (t := Qpower (2 # 1) (- (1000))) in *. set (kk := inject_Z k) in *. clearbody r u eta t kk v.
    assert (V1 : (0 <= v * kk)%Q) by (now apply Qmult_le_0_compat). assert (V2 : (0 <= u * (v * kk))%Q) by (now apply Qmult_le_0_compat).
    assert (V3 : (u * (u * (v * kk)) <= (1 # 1000) * (u * (v * kk)))%Q) by (now apply Qmult_le_compat_r).
    assert (V4 : (0 <= u * (u * (v * kk)))%Q) by (now apply Qmult_le_0_compat).
    assert (L1 : (((1 - u) * v - eta) * kk <= r * kk)%Q) by (apply Qmult_le_compat_r; lra).
    assert (L2 : (r * kk <= ((1 + u) * v + eta) * kk)%Q) by (apply Qmult_le_compat_r; lra).
    assert (L3 : (kk * eta <= 3600 * eta)%Q) by (apply Qmult_le_compat_r; lra).
    assert (L4 : (0 <= kk * eta)%Q) by (now apply Qmult_le_0_compat).
    assert (L5 : (0 <= u * (kk * eta))%Q) by (now apply Qmult_le_0_compat). assert (L6 : (u * (kk * eta) <= (1 # 1000) * (kk * eta))%Q) by (now apply Qmult_le_compat_r).
    assert (G1 : ((1 - 2 * u) * (((1 - u) * v - eta) * kk) <= (1 - 2 * u) * (r * kk))%Q) by (rewrite !(Qmult_comm (1 - 2 * u)); apply Qmult_le_compat_r; lra).
    assert (G2 : ((1 + 2 * u) * (r * kk) <= (1 + 2 * u) * (((1 + u) * v + eta) * kk))%Q) by (rewrite !(Qmult_comm (1 + 2 * u)); apply Qmult_le_compat_r; lra).
    assert (P1 : ((1 - 2 * u) * (((1 - u) * v - eta) * kk) == v * kk - 3 * (u * (v * kk)) + 2 * (u * (u * (v * kk))) - kk * eta + 2 * (u * (kk * eta)))%Q) by ring.
    assert (P2 : ((1 + 2 * u) * (((1 + u) * v + eta) * kk) == v * kk + 3 * (u * (v * kk)) + 2 * (u * (u * (v * kk))) + kk * eta + 2 * (u * (kk * eta)))%Q) by ring.
    assert (P3 : ((1 - 4 * u) * (v * kk) == v * kk - 4 * (u * (v * kk)))%Q) by ring. assert (P4 : ((1 + 4 * u) * (v * kk) == v * kk + 4 * (u * (v * kk)))%Q) by ring.
    rewrite P3, P4. rewrite P1 in G1. rewrite P2 in G2.
    set (p := (v * kk)%Q) in *. set (m1 := (u * p)%Q) in *. set (m2 := (u * m1)%Q) in *. set (m3 := (kk * eta)%Q) in *. set (m4 := (u * m3)%Q) in *.
    set (g1 := ((1 - 2 * u) * (r * kk))%Q) in *. set (g2 := ((1 + 2 * u) * (r * kk))%Q) in *. split; lra.
Qed.
Print Assumptions C67_duration.

(** multiplying and dividing is accurate *)
Lemma near64 v w : (v == w)%Q -> (0 <= v)%Q -> (v <= inject_Z (2 ^ 990))%Q ->
  exists y, ieee (Fin v) = Fin y /\ ((1 - 2 * u64) * w - eta64 <= y)%Q /\ (y <= (1 + 2 * u64) * w + eta64)%Q.
Proof.
  intros Ew V0 V1. destruct (ieee_up 990 v) as (E & _ & _); [lia|lia|exact V0|exact V1|]. exists (rnd64 v). split; [exact E|]. rewrite <- Ew. clear Ew.
  pose proof (r_low _ _ _ rounding64 _ V0) as R1. pose proof (r_high _ _ _ rounding64 _ V0) as R2.
  assert (U0 : (0 <= u64)%Q) by (vm_compute; discriminate). assert (M : (0 <= u64 * v)%Q) by (now apply Qmult_le_0_compat).
  assert (X1 : ((1 - 2 * u64) * v == (1 - u64) * v - u64 * v)%Q) by ring. assert (X2 : ((1 + 2 * u64) * v == (1 + u64) * v + u64 * v)%Q) by ring.
  rewrite X1, X2. clear E X1 X2. set (r := rnd64 v) in *. set (m := (u64 * v)%Q) in *. set (a := ((1 - u64) * v)%Q) in *. set (b := ((1 + u64) * v)%Q) in *. set (e := eta64) in *.
  clearbody r m a b e. split; lra.
Qed.
Lemma exact64 v w : (v == w)%Q -> (0 <= v)%Q -> ((1 - 2 * u64) * w - eta64 <= v)%Q /\ (v <= (1 + 2 * u64) * w + eta64)%Q.
Proof.
  intros Ew V0. rewrite <- Ew. clear Ew. assert (U0 : (0 <= u64)%Q) by (vm_compute; discriminate). assert (M : (0 <= u64 * v)%Q) by (now apply Qmult_le_0_compat).
  assert (T1 : (0 <= eta64)%Q) by (vm_compute; discriminate).
  assert (X1 : ((1 - 2 * u64) * v == v - 2 * (u64 * v))%Q) by ring. assert (X2 : ((1 + 2 * u64) * v == v + 2 * (u64 * v))%Q) by ring.
  rewrite X1, X2. clear X1 X2. set (m := (u64 * v)%Q) in *. set (e := eta64) in *. clearbody m e. split; lra.
Qed.
Lemma times_accurate : accurate_durations times.
Proof.
  intros u v x Hu Hv X0 X1 w.
  assert (B0 : (inject_Z (2 ^ 900) * 3600 <= inject_Z (2 ^ 990))%Q) by (vm_compute; discriminate).
  set (big := inject_Z (2 ^ 900)) in *. set (big' := inject_Z (2 ^ 990)) in *. assert (P : (0 <= big)%Q) by (unfold big; vm_compute; discriminate). clearbody big.
  assert (D : forall k, (1 <= k)%Z -> (0 <= x / inject_Z k)%Q /\ (x / inject_Z k <= big)%Q).
  { intros k Hk. assert (K : (1 <= inject_Z k)%Q) by (change 1%Q with (inject_Z 1); now rewrite <- Zle_Qle). split; [apply Qle_shift_div_l; lra|].
    apply Qle_shift_div_r; [lra|]. apply Qle_trans with (big * 1)%Q; [lra|]. rewrite !(Qmult_comm big). apply Qmult_le_compat_r; auto. }
  destruct (D 60%Z) as [D1 D2]; [lia|]. destruct (D 3600%Z) as [D3 D4]; [lia|].
  destruct Hu as [<-|[<-|[<-|[]]]]; destruct Hv as [<-|[<-|[<-|[]]]]; cbn [times seconds_of] in *; subst w;
    try (exists x; split; [reflexivity|]; apply exact64; [field|exact X0]);
    unfold rmul, rdiv; [change (fdiv (Fin x) (fz 60)) with (Fin (x / inject_Z 60))|change (fdiv (Fin x) (fz 3600)) with (Fin (x / inject_Z 3600))
      |change (fmul (Fin x) (fz 60)) with (Fin (x * inject_Z 60))|change (fdiv (Fin x) (fz 60)) with (Fin (x / inject_Z 60))
      |change (fmul (Fin x) (fz 3600)) with (Fin (x * inject_Z 3600))|change (fmul (Fin x) (fz 60)) with (Fin (x * inject_Z 60))];
    (apply near64; [unfold inject_Z; field| |]); fold big'; try assumption; unfold inject_Z in *; lra.
Qed.
Example C67_duration_case : accurate_durations times /\ calculated_by ieee times Seconds Kilometers (Fin 1) KilometersPerHour (Fin 7) (times Hours Seconds (ieee (Fin (1 # 7)))) /\
  exists w, try_calc Seconds Kilometers (Fin 1) KilometersPerHour (Fin 7) = Ok (Fin w) /\ (w == 3600 # 7)%Q.
Proof.
  split; [exact times_accurate|]. split.
  - split; [reflexivity|]. right. left. split; [reflexivity|]. split; [left; reflexivity|]. reflexivity.
  - eexists. split; [reflexivity|]. vm_compute. reflexivity.
Qed.
