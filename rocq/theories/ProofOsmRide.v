(** Rides and paths: lemmas for C66 *)
From Coq Require Import String List Bool Arith NArith ZArith QArith Lia Lqa.
From Verif Require Import Base F64 Lib ModelStreets ModelUnits ModelConfig ModelGraph ModelBuild ModelParsing
  Spec SpecRouting SpecRouted ProofNodes ProofProps ProofNonneg PropsGraph SpecOsm ProofOsm.
Import ListNotations.
Open Scope string_scope.
Open Scope list_scope.
Open Scope nat_scope.

Lemma leg_speed vc objs a b v n : leg vc objs a b v n -> (1 <= Z.of_N v)%Z.
Proof. intros (nodes & ts & c & _ & _ & -> & _). apply speed_pos. Qed.

Lemma fdiv_speed km z : (1 <= z)%Z -> fdiv (Fin km) (fz z) = Fin (km / inject_Z z)%Q.
Proof.
  intros Hz. unfold fdiv, fz. destruct (qsign (inject_Z z)) eqn:E; auto. exfalso.
  unfold qsign in E. cbn in E. destruct z; cbn in E; try discriminate; lia.
Qed.

(** an edge costs what its leg costs *)
Lemma leg_weight x y v n km t :
  exists q, weighted_sum [Fin 0; Fin 0; Fin x; Fin y] [fz v; fz n; Fin km; Fin t] = Some q /\ (q == x * km + y * t)%Q.
Proof. eexists. split; [reflexivity|]. ring. Qed.

Lemma costs_unique g al es q : costs_as g al es q -> forall q', costs_as g al es q' -> q = q'.
Proof.
  induction 1 as [|e es ms a b Em Ew Hc IH]; intros q' H'; inversion H'; subst; auto.
  assert (ms0 = ms) by congruence. subst ms0. assert (a0 = a) by congruence. subst a0. f_equal. now apply IH.
Qed.

Section Ride.
  Variables (hav : coord -> coord -> f64) (dim : nat) (vc : vehicle_cfg) (ch1 ch2 : nat) (objs : list osm_obj) (g : graph).
  Hypothesis H1 : 1 <= ch1.
  Hypothesis H2 : 1 <= ch2.
  Hypothesis HG : pbf_graph hav dim (osm_cfg vc) ch1 ch2 objs = Ok g.

  Lemma osm_built : build hav (pc_cfg (osm_cfg vc)) ch1 ch2 (pbf_edges (osm_cfg vc) objs) (pbf_nodes objs) = Ok g.
  Proof. pose proof HG as E. unfold pbf_graph in E. apply bind_ok in E. destruct E as ([] & _ & E). exact E. Qed.

  Lemma osm_one_index i j id : node_id g i = Ok id -> node_id g j = Ok id -> i = j.
  Proof.
    intros Hi Hj. destruct (C01_node_set _ _ _ _ _ _ _ H1 H2 osm_built) as (_ & Hs & _).
    destruct (Nat.lt_total i j) as [H|[H|H]]; auto; exfalso.
    - pose proof (Hs _ _ _ _ Hi Hj H). lia.
    - pose proof (Hs _ _ _ _ Hj Hi H). lia.
  Qed.

  Lemma osm_edge_lt e s d : edge_from_to g e s d -> e < edge_count g FWD.
  Proof. intros [_ H]. apply idx_ok in H. exact (nth_error_lt _ _ _ H). Qed.

  Lemma osm_nonneg : proper_distance hav -> nonneg_metrics g.
  Proof.
    intros Hp. eapply build_nonneg; [exact H1|exact H2|exact osm_built|]. intros gc Hgc. cbn in Hgc.
    destruct Hgc as [<-|[<-|[<-|[<-|[]]]]]; cbn; auto. intros x y. destruct (Hp x y) as (q & -> & Hq). exact Hq.
  Qed.

  Variables (x y : Q).
  Let al := [Fin 0; Fin 0; Fin x; Fin y].

  Lemma path_ride : proper_distance hav -> forall s es t, connects g s es t -> forall a, node_id g s = Ok a ->
    forall b, node_id g t = Ok b ->
    exists l km h q, over g es l /\ ride hav vc objs a l b km h /\ costs_as g al es q /\ (q == x * km + y * h)%Q.
  Proof.
    intros Hp. destruct (osm_edges _ _ _ _ _ _ _ H1 H2 HG) as (A & _).
    induction 1 as [s|s e z es t He Hc IH]; intros a Ha b Hb.
    - assert (a = b) as -> by congruence. exists [], 0%Q, 0%Q, 0%Q. split; [constructor|]. split; [constructor|]. split; [constructor|]. ring.
    - destruct (A e (osm_edge_lt _ _ _ He)) as (a' & m & v & n & s' & d & xs & xd & Hleg & [F1 F2] & Hs & Hd & _ & _ & La & Lm & Hm).
      destruct He as [G1 G2]. assert (s' = s) by congruence. assert (d = z) by congruence. subst s' d.
      assert (a' = a) as -> by congruence. destruct (IH m Hd b Hb) as (l & km & h & q & Ho & Hr & Hq & Eq).
      destruct (Hp xs xd) as (k & Ek & Hk). rewrite Ek, (fdiv_speed k _ (leg_speed _ _ _ _ _ _ Hleg)) in Hm.
      destruct (leg_weight x y (Z.of_N v) (Z.of_nat n) k (k / inject_Z (Z.of_N v))%Q) as (w & Ew & Hw).
      exists (m :: l), (k + km)%Q, (k / inject_Z (Z.of_N v) + h)%Q, (w + q)%Q.
      split; [constructor; eauto|]. split; [econstructor; eauto|]. split; [econstructor; eauto|]. rewrite Hw, Eq. ring.
  Qed.

  Lemma ride_path a l b km h : ride hav vc objs a l b km h -> forall s, node_id g s = Ok a ->
    exists es t q, connects g s es t /\ node_id g t = Ok b /\ over g es l /\ costs_as g al es q /\ (q == x * km + y * h)%Q.
  Proof.
    destruct (osm_edges _ _ _ _ _ _ _ H1 H2 HG) as (_ & B).
    induction 1 as [a|a m v n xa xm k l b km h Hleg La Lm Ek Hr IH]; intros s Ha.
    - exists [], s, 0%Q. split; [constructor|]. split; [exact Ha|]. split; [constructor|]. split; [constructor|]. ring.
    - destruct (B a m v n Hleg) as (e & He & s' & d & xs & xd & _ & Hft & Hs & Hd & _ & _ & La' & Lm' & Hm).
      assert (s' = s) by (eapply osm_one_index; eauto). subst s'.
      rewrite (located_unique _ _ _ _ La' La), (located_unique _ _ _ _ Lm' Lm) in Hm.
      rewrite Ek, (fdiv_speed k _ (leg_speed _ _ _ _ _ _ Hleg)) in Hm.
      destruct (IH d Hd) as (es & t & q & Hc & Ht & Ho & Hq & Eq).
      destruct (leg_weight x y (Z.of_N v) (Z.of_nat n) k (k / inject_Z (Z.of_N v))%Q) as (w & Ew & Hw).
      exists (e :: es), t, (w + q)%Q. split; [econstructor; eauto|]. split; [exact Ht|].
      split; [constructor; auto; exists d; split; auto; apply Hft|]. split; [econstructor; eauto|]. rewrite Hw, Eq. ring.
  Qed.
End Ride.
