(** Rides and paths in binary64: lemmas for C67 *)
From Coq Require Import String List Bool Arith NArith ZArith QArith Qabs Lia Lqa.
From Verif Require Import Base F64 Lib ModelStreets ModelUnits ModelConfig ModelGraph ModelBuild ModelParsing ModelRounded ModelRoundedBuild
  Spec SpecRouting SpecRouted SpecRounded SpecRoundedHeap SpecRoundedBuild SpecOsm ProofNodes ProofProps PropsGraph ProofMetrics ProofRouting ProofRounded ProofRounding64 ProofRoundedUpdate ProofRoundedBuild2 ProofRoundedBuild3 ProofGraph
  ProofOsm ProofOsmRide.
Import ListNotations.
Open Scope string_scope.
Open Scope list_scope.
Open Scope nat_scope.

Lemma earthly_proper hav : earthly_distance hav -> proper_distance hav.
Proof. intros H x y. destruct (H x y) as (q & E & Hq & _). eauto. Qed.

Lemma remetric_remeasured g h : remeasured g (with_metrics g (map h (metrics g))).
Proof. apply remeasured_net; [constructor; reflexivity|]. apply map_length. Qed.

Lemma duration_up k v : (1 <= v)%Z -> (0 <= k)%Q -> (k <= inject_Z (2 ^ 20))%Q -> (0 <= k / inject_Z v)%Q /\ (k / inject_Z v <= inject_Z (2 ^ 20))%Q.
Proof.
  intros Hv Hk Hu. assert (P : (0 < inject_Z v)%Q) by (unfold Qlt; cbn; lia). split; [apply Qle_shift_div_l; lra|].
  apply Qle_shift_div_r; auto. apply Qle_trans with (inject_Z (2 ^ 20)); auto. rewrite <- (Qmult_1_r (inject_Z (2 ^ 20))) at 1.
  rewrite !(Qmult_comm (inject_Z (2 ^ 20))). apply Qmult_le_compat_r; [unfold Qle; cbn; lia|]. vm_compute. discriminate.
Qed.

Lemma duration64 k v : (1 <= v)%Z -> (0 <= k)%Q -> (k <= inject_Z (2 ^ 20))%Q ->
  ieee (Fin (k / inject_Z v)) = Fin (rnd64 (k / inject_Z v)) /\ (0 <= rnd64 (k / inject_Z v))%Q /\ (rnd64 (k / inject_Z v) <= inject_Z (2 ^ 20))%Q /\
  ((1 - u64) * (k / inject_Z v) - eta64 <= rnd64 (k / inject_Z v))%Q /\ (rnd64 (k / inject_Z v) <= (1 + u64) * (k / inject_Z v) + eta64)%Q.
Proof.
  intros Hv Hk Hu. destruct (duration_up k v Hv Hk Hu) as [A B].
  destruct (ieee_up 20 (k / inject_Z v)) as (E & E0 & E1); [lia|lia|auto|exact B|]. split; [exact E|]. split; [exact E0|]. split; [exact E1|].
  pose proof (r_low _ _ _ rounding64 _ A). pose proof (r_high _ _ _ rounding64 _ A). split; lra.
Qed.

Lemma built_measured hav c ch1 ch2 es ns g : 1 <= ch1 -> 1 <= ch2 -> build hav c ch1 ch2 es ns = Ok g -> length (metrics g) = edge_count g FWD.
Proof.
  intros H1 H2 E. destruct (build_normalized_split _ _ _ _ _ _ _ E) as (b & g0 & g1 & Eb & Hb & E0 & E1 & E2 & _).
  destruct (build_generated _ _ _ _ _ _ _ _ H1 H2 Hb E0 E1) as [_ Hl].
  rewrite (normalize_length _ _ E2), Hl. destruct (normalize_net _ _ E2) as [Hn _]. now rewrite (net_edge_count g1 g) by auto.
Qed.

Definition nlen {A} (l : list A) : Q := inject_Z (Z.of_nat (length l)).
Lemma nlen_cons {A} (a : A) l : (nlen (a :: l) == 1 + nlen l)%Q.
Proof. unfold nlen, Qeq, Qplus, inject_Z. cbn [length Qnum Qden]. lia. Qed.

Section Ride64.
  Variables (hav : coord -> coord -> f64) (dim : nat) (vc : vehicle_cfg) (ch1 ch2 : nat) (objs : list osm_obj) (g : graph).
  Hypothesis H1 : 1 <= ch1.
  Hypothesis H2 : 1 <= ch2.
  Hypothesis HG : pbf_graph hav dim (osm_cfg vc) ch1 ch2 objs = Ok g.
  Hypothesis He : earthly_distance hav.
  Let g' := with_metrics g (map (round_last ieee) (metrics g)).

  (** what edges of the rounded graph are *)
  Definition tells64 (e : nat) (a b : Z) (v : N) (n : nat) : Prop :=
    exists s d xs xd k, leg vc objs a b v n /\ edge_from_to g' e s d /\ node_id g' s = Ok a /\ node_id g' d = Ok b /\
      located objs a xs /\ located objs b xd /\ hav xs xd = Fin k /\ (0 <= k)%Q /\ (k <= inject_Z (2 ^ 20))%Q /\ (1 <= Z.of_N v)%Z /\
      edge_metrics g' e = Ok [fz (Z.of_N v); fz (Z.of_nat n); Fin k; Fin (rnd64 (k / inject_Z (Z.of_N v)))].

  Lemma tells_rounded e a b v n : tells hav vc objs g e a b v n -> tells64 e a b v n.
  Proof.
    intros (s & d & xs & xd & Hl & Hft & Hs & Hd & _ & _ & La & Lb & Hm). pose proof (leg_speed _ _ _ _ _ _ Hl) as Hv.
    destruct (He xs xd) as (k & Ek & K0 & K1). exists s, d, xs, xd, k. repeat (split; [first [assumption|apply Hft]|]).
    rewrite Ek, (fdiv_speed k _ Hv) in Hm. destruct (duration64 k _ Hv K0 K1) as (E & _).
    unfold edge_metrics in *. apply idx_ok in Hm. apply idx_ok. unfold g'. cbn [with_metrics metrics]. rewrite nth_error_map, Hm. unfold round_last. cbn [option_map removelast last app]. now rewrite E.
  Qed.

  Lemma osm_edges64 : (forall e, e < edge_count g' FWD -> exists a b v n, tells64 e a b v n) /\
    (forall a b v n, leg vc objs a b v n -> exists e, e < edge_count g' FWD /\ tells64 e a b v n).
  Proof.
    destruct (osm_edges _ _ _ _ _ _ _ H1 H2 HG) as (A & B). split.
    - intros e Hlt. destruct (A e Hlt) as (a & b & v & n & T). exists a, b, v, n. now apply tells_rounded.
    - intros a b v n Hl. destruct (B a b v n Hl) as (e & Hlt & T). exists e. split; [exact Hlt|]. now apply tells_rounded.
  Qed.

  Lemma edge_lt64 e s d : edge_from_to g' e s d -> e < edge_count g' FWD.
  Proof. intros [_ H]. apply idx_ok in H. exact (nth_error_lt _ _ _ H). Qed.
  Lemma metrics_lt64 e ms : edge_metrics g' e = Ok ms -> e < edge_count g' FWD.
  Proof.
    intros H. apply idx_ok in H. apply nth_error_lt in H. unfold g' in H. cbn [with_metrics metrics] in H. rewrite map_length in H.
    change (e < edge_count g FWD). rewrite <- (built_measured _ _ _ _ _ _ _ H1 H2 (osm_built _ _ _ _ _ _ _ HG)). exact H.
  Qed.

  Lemma one_index64 i j id : node_id g' i = Ok id -> node_id g' j = Ok id -> i = j.
  Proof. exact (osm_one_index _ _ _ _ _ _ _ H1 H2 HG i j id). Qed.

  Lemma osm_nonneg64 : nonneg_metrics g'.
  Proof.
    intros e ms x E Hx. destruct (proj1 osm_edges64 e (metrics_lt64 _ _ E)) as (a & b & v & n & s & d & xs & xd & k & _ & _ & _ & _ & _ & _ & _ & K0 & K1 & Hv & Hm).
    rewrite E in Hm. injection Hm as ->. destruct (duration64 k _ Hv K0 K1) as (_ & D & _).
    destruct Hx as [<-|[<-|[<-|[<-|[]]]]]; cbn; try assumption; unfold Qle; cbn; lia.
  Qed.

  Variables (x y : Q).
  Hypothesis Hx : (0 <= x)%Q.
  Hypothesis Hy : (0 <= y)%Q.
  Let al := [Fin 0; Fin 0; Fin x; Fin y].

  (** [q] is what a ride of [n] legs costs, up to rounding *)
  Definition about (n : Q) (q p : Q) : Prop := ((1 - u64) * p - y * (n * eta64) <= q)%Q /\ (q <= (1 + u64) * p + y * (n * eta64))%Q.

  Lemma about_step n k d w r q p : (0 <= k)%Q -> (w == x * k + y * r)%Q -> ((1 - u64) * d - eta64 <= r)%Q -> (r <= (1 + u64) * d + eta64)%Q ->
    about n q p -> about (1 + n) (w + q)%Q (x * k + y * d + p)%Q.
  Proof.
    intros K0 Hw L U [A B]. assert (X : (0 <= x * k)%Q) by (now apply Qmult_le_0_compat).
    assert (U0 : (0 <= u64 * (x * k))%Q) by (apply Qmult_le_0_compat; auto; vm_compute; discriminate).
    assert (L' : (y * ((1 - u64) * d - eta64) <= y * r)%Q) by (rewrite !(Qmult_comm y); now apply Qmult_le_compat_r).
    assert (U' : (y * r <= y * ((1 + u64) * d + eta64))%Q) by (rewrite !(Qmult_comm y); now apply Qmult_le_compat_r).
    unfold about in *. rewrite Hw. set (u := u64) in *. set (eta := eta64) in *. clearbody u eta.
    assert (E1 : ((1 - u) * (x * k + y * d + p) - y * ((1 + n) * eta) == (x * k - u * (x * k)) + y * ((1 - u) * d - eta) + ((1 - u) * p - y * (n * eta)))%Q) by ring.
    assert (E2 : ((1 + u) * (x * k + y * d + p) + y * ((1 + n) * eta) == (x * k + u * (x * k)) + y * ((1 + u) * d + eta) + ((1 + u) * p + y * (n * eta)))%Q) by ring.
    rewrite E1, E2. set (t1 := (x * k)%Q) in *. set (t2 := (y * r)%Q) in *. set (t3 := (u * t1)%Q) in *. split; lra.
  Qed.

  Lemma about_proper n n' q p p' : (n == n')%Q -> (p == p')%Q -> about n q p -> about n' q p'.
  Proof. unfold about. intros -> ->. auto. Qed.
  Lemma about_nil : about 0 0 0.
  Proof. unfold about. split; [|]; ring_simplify; lra. Qed.

  Lemma path_ride64 : forall s es t, connects g' s es t -> forall a, node_id g' s = Ok a -> forall b, node_id g' t = Ok b ->
    exists l km h q, over g' es l /\ ride hav vc objs a l b km h /\ costs_as g' al es q /\ about (nlen es) q (x * km + y * h)%Q.
  Proof.
    induction 1 as [s|s e z es t Hft Hc IH]; intros a Ha b Hb.
    - assert (a = b) as -> by congruence. exists [], 0%Q, 0%Q, 0%Q. split; [constructor|]. split; [constructor|]. split; [constructor|].
      eapply about_proper; [| |apply about_nil]; [reflexivity|ring].
    - destruct (proj1 osm_edges64 e (edge_lt64 _ _ _ Hft)) as (a' & m & v & n & s' & d & xs & xd & k & Hleg & [F1 F2] & Hs & Hd & La & Lm & Ek & K0 & K1 & Hv & Hm).
      destruct Hft as [G1 G2]. assert (s' = s) by congruence. assert (d = z) by congruence. subst s' d.
      assert (a' = a) as -> by congruence. destruct (IH m Hd b Hb) as (l & km & h & q & Ho & Hr & Hq & Ab).
      destruct (leg_weight x y (Z.of_N v) (Z.of_nat n) k (rnd64 (k / inject_Z (Z.of_N v)))%Q) as (w & Ew & Hw).
      destruct (duration64 k _ Hv K0 K1) as (_ & _ & _ & D1 & D2).
      exists (m :: l), (k + km)%Q, (k / inject_Z (Z.of_N v) + h)%Q, (w + q)%Q.
      split; [constructor; eauto|]. split; [econstructor; eauto|]. split; [econstructor; eauto|].
      eapply about_proper; [| |eapply about_step; [exact K0|exact Hw|exact D1|exact D2|exact Ab]]; [symmetry; apply nlen_cons|ring].
  Qed.

  Lemma ride_path64 a l b km h : ride hav vc objs a l b km h -> forall s, node_id g' s = Ok a ->
    exists es t q, connects g' s es t /\ node_id g' t = Ok b /\ over g' es l /\ costs_as g' al es q /\ about (nlen es) q (x * km + y * h)%Q.
  Proof.
    induction 1 as [a|a m v n xa xm k l b km h Hleg La Lm Ek Hr IH]; intros s Ha.
    - exists [], s, 0%Q. split; [constructor|]. split; [exact Ha|]. split; [constructor|]. split; [constructor|].
      eapply about_proper; [| |apply about_nil]; [reflexivity|ring].
    - destruct (proj2 osm_edges64 a m v n Hleg) as (e & _ & s' & d & xs & xd & k' & _ & Hft & Hs & Hd & La' & Lm' & Ek' & K0 & K1 & Hv & Hm).
      assert (s' = s) by (eapply one_index64; eauto). subst s'.
      rewrite (located_unique _ _ _ _ La' La), (located_unique _ _ _ _ Lm' Lm), Ek in Ek'. injection Ek' as <-.
      destruct (IH d Hd) as (es & t & q & Hc & Ht & Ho & Hq & Ab).
      destruct (leg_weight x y (Z.of_N v) (Z.of_nat n) k (rnd64 (k / inject_Z (Z.of_N v)))%Q) as (w & Ew & Hw).
      destruct (duration64 k _ Hv K0 K1) as (_ & _ & _ & D1 & D2).
      exists (e :: es), t, (w + q)%Q. split; [econstructor; eauto|]. split; [exact Ht|].
      split; [constructor; auto; exists d; split; auto; apply Hft|]. split; [econstructor; eauto|].
      eapply about_proper; [| |eapply about_step; [exact K0|exact Hw|exact D1|exact D2|exact Ab]]; [symmetry; apply nlen_cons|ring].
  Qed.

  Hypothesis Ux : (x <= inject_Z (2 ^ 900))%Q.
  Hypothesis Uy : (y <= inject_Z (2 ^ 900))%Q.

  Lemma osm_fits64 : (Z.of_nat (2 * node_count g' + 6) <= 2 ^ 20)%Z -> fits64 g' al.
  Proof.
    intros Hn. split; [unfold al; cbn [length]; lia|]. intros e q Hq. inversion Hq as [|e' es ms a b Em Ew Hb]; subst. inversion Hb; subst.
    destruct (proj1 osm_edges64 e (metrics_lt64 _ _ Em)) as (c & b & v & n & s & d & xs & xd & k & _ & _ & _ & _ & _ & _ & _ & K0 & K1 & Hv & Hm).
    rewrite Em in Hm. injection Hm as ->. destruct (duration64 k _ Hv K0 K1) as (_ & D0 & D1 & _).
    destruct (leg_weight x y (Z.of_N v) (Z.of_nat n) k (rnd64 (k / inject_Z (Z.of_N v)))%Q) as (w & Ew' & Hw).
    unfold al in Ew. assert (a = w) as -> by (rewrite Ew in Ew'; now injection Ew'). rewrite Qplus_0_r, Hw.
    set (r := rnd64 (k / inject_Z (Z.of_N v))) in *.
    assert (M : forall z k0, (0 <= k0)%Q -> (k0 <= inject_Z (2 ^ 20))%Q -> (0 <= z)%Q -> (z <= inject_Z (2 ^ 900))%Q -> (z * k0 <= inject_Z (2 ^ 920))%Q).
    { intros z k0 A1 A2 A3 A4. apply Qle_trans with (z * inject_Z (2 ^ 20))%Q; [rewrite !(Qmult_comm z); now apply Qmult_le_compat_r|].
      apply Qle_trans with (inject_Z (2 ^ 900) * inject_Z (2 ^ 20))%Q; [apply Qmult_le_compat_r; auto; vm_compute; discriminate|]. vm_compute. discriminate. }
    pose proof (M x k K0 K1 Hx Ux) as M1. pose proof (M y r D0 D1 Hy Uy) as M2.
    apply Qle_trans with (inject_Z (2 ^ 920) + inject_Z (2 ^ 920))%Q; [now apply Qplus_le_compat|]. vm_compute. discriminate.
  Qed.

End Ride64.

  Lemma about_small y es q p : (0 <= y)%Q -> (y <= inject_Z (2 ^ 900))%Q -> (Z.of_nat (length (es : list nat)) <= 2 ^ 20)%Z -> about y (nlen es) q p ->
    ((1 - u64) * p - (1 # 1000000000) <= q)%Q /\ (q <= (1 + u64) * p + (1 # 1000000000))%Q.
  Proof.
    intros Hy Uy Hl [A B]. assert (T : (y * (nlen es * eta64) <= (1 # 1000000000))%Q).
    { apply Qle_trans with (inject_Z (2 ^ 900) * (inject_Z (2 ^ 20) * eta64))%Q; [|vm_compute; discriminate].
      apply Qle_trans with (inject_Z (2 ^ 900) * (nlen es * eta64))%Q.
      - apply Qmult_le_compat_r; auto. apply Qmult_le_0_compat; [unfold nlen, Qle; cbn; lia|vm_compute; discriminate].
      - rewrite !(Qmult_comm (inject_Z (2 ^ 900))). apply Qmult_le_compat_r; [|vm_compute; discriminate].
        apply Qmult_le_compat_r; [unfold nlen; rewrite <- Zle_Qle; exact Hl|vm_compute; discriminate]. }
    split; lra.
  Qed.

Lemma ride_nonneg64 hav vc objs a l b km h : earthly_distance hav -> ride hav vc objs a l b km h -> (0 <= km)%Q /\ (0 <= h)%Q.
Proof.
  intros He. induction 1 as [a|a m v n xa xm k l b km h Hleg La Lm Ek Hr [I1 I2]]; [split; apply Qle_refl|].
  destruct (He xa xm) as (k' & Ek' & K0 & K1). rewrite Ek in Ek'. injection Ek' as <-.
  destruct (duration_up k _ (leg_speed _ _ _ _ _ _ Hleg) K0 K1) as [D _]. split.
  - rewrite <- (Qplus_0_r 0). now apply Qplus_le_compat.
  - rewrite <- (Qplus_0_r 0). now apply Qplus_le_compat.
Qed.
