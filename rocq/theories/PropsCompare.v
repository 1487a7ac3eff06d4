(** C26: comparisons of options, coordinates, entries of the queue and nodes *)
From Coq Require Import String List Bool Arith ZArith QArith Qabs Qround Lia Lqa.
From Verif Require Import Base F64 Lib ModelApprox ProofApprox PropsApprox ModelUnits ModelConfig ModelGraph ModelBuild Spec Examples
  PropsGraph ModelDijkstra ModelHeap ModelCompare.
Import ListNotations.
Open Scope list_scope.
Open Scope nat_scope.

(** Nothing is less than something; two values compare as they do without the option. *)
Theorem C26_options x y :
  (approx_eq_opt x y = true <-> (x = None /\ y = None) \/ exists a b, x = Some a /\ y = Some b /\ close a b) /\
  (approx_cmp_opt x y = Some Lt <->
     (x = None /\ y <> None) \/ exists a b, x = Some a /\ y = Some b /\ approx_cmp a b = Some Lt) /\
  (approx_cmp_opt x y = Some Gt <-> approx_cmp_opt y x = Some Lt) /\
  (approx_eq_opt x y = true -> approx_cmp_opt x y = Some Eq).
Proof.
  assert (Hgt : forall a b, approx_cmp a b = Some Gt <-> approx_cmp b a = Some Lt).
  { intros a b. unfold approx_cmp. rewrite (proj2 (C26_approx_reflexive_symmetric b a)). destruct (approx_eq a b); [split; discriminate|].
    destruct a as [p| | |], b as [q| | |]; cbn [fcmp]; try (split; congruence). rewrite <- (Qcompare_antisym p q).
    destruct (p ?= q)%Q; cbn; split; congruence. }
  destruct x as [a|], y as [b|]; cbn [approx_eq_opt approx_cmp_opt].
  - split; [|split; [|split]].
    + rewrite approx_eq_iff. split; [intros H; right; exists a, b; auto|].
      intros [[? _]|(a' & b' & E1 & E2 & H)]; [discriminate|]. injection E1 as <-. injection E2 as <-. exact H.
    + split; [intros H; right; exists a, b; auto|].
      intros [[? _]|(a' & b' & E1 & E2 & H)]; [discriminate|]. injection E1 as <-. injection E2 as <-. exact H.
    + apply Hgt.
    + intros H. unfold approx_cmp. now rewrite H.
  - split; [|split; [|split; [tauto|discriminate]]].
    + split; [discriminate|]. intros [[? _]|(a' & b' & E1 & E2 & H)]; congruence.
    + split; [discriminate|]. intros [[? _]|(a' & b' & E1 & E2 & H)]; congruence.
  - split; [|split; [|split; [split; discriminate|discriminate]]].
    + split; [discriminate|]. intros [[_ ?]|(a' & b' & E1 & E2 & H)]; congruence.
    + split; [intros _; left; split; congruence|reflexivity].
  - split; [tauto|]. split; [|split; [split; discriminate|reflexivity]].
    split; [discriminate|]. intros [[_ ?]|(a' & b' & E1 & E2 & H)]; congruence.
Qed.
Print Assumptions C26_options.
Example C26_options_case : approx_cmp_opt None (Some (Fin 0)) = Some Lt /\ approx_cmp_opt (Some (Fin 2)) (Some (Fin 1)) = Some Gt /\
  approx_eq_opt (Some (Fin 1)) (Some (Fin (1000001 # 1000000))) = true /\ approx_eq_opt None (Some (Fin 0)) = false.
Proof. repeat split. Qed.

(** Coordinates are equal if both their numbers are close; approximating replaces
    both by the nearest multiples of 1e-6. *)
Lemma qround_near q : (Qabs (inject_Z (qround q) - q) <= 1 # 2)%Q.
Proof.
  unfold qround. destruct (Qle_bool 0 q).
  - pose proof (Qfloor_le (q + (1 # 2))) as A. pose proof (Qlt_floor (q + (1 # 2))) as B. rewrite inject_Z_plus in B.
    change (inject_Z 1) with 1%Q in B. apply Qabs_Qle_condition. split; lra.
  - pose proof (Qfloor_le (- q + (1 # 2))) as A. pose proof (Qlt_floor (- q + (1 # 2))) as B. rewrite inject_Z_plus in B.
    change (inject_Z 1) with 1%Q in B. rewrite inject_Z_opp. apply Qabs_Qle_condition. split; lra.
Qed.
Lemma approx_near q : exists z, approx (Fin q) = Fin (inject_Z z * (1 # 1000000)) /\ (Qabs (inject_Z z * (1 # 1000000) - q) <= 1 # 2000000)%Q.
Proof.
  exists (qround (q / ABSQ)). split; [reflexivity|]. pose proof (qround_near (q / ABSQ)) as H. set (z := inject_Z (qround (q / ABSQ))) in *. clearbody z.
  apply Qabs_Qle_condition in H. apply Qabs_Qle_condition. unfold ABSQ in H.
  assert (E : (q / (1 # 1000000) == q * 1000000)%Q) by (unfold Qdiv; reflexivity). rewrite E in H. split; lra.
Qed.
Theorem C26_coordinates a b :
  (approx_eq_coord a b = true <-> close (lat a) (lat b) /\ close (lon a) (lon b)) /\
  (forall x y, a = mkCoord (Fin x) (Fin y) -> exists m n : Z,
     approx_coord a = mkCoord (Fin (inject_Z m * (1 # 1000000))) (Fin (inject_Z n * (1 # 1000000))) /\
     (Qabs (inject_Z m * (1 # 1000000) - x) <= 1 # 2000000)%Q /\ (Qabs (inject_Z n * (1 # 1000000) - y) <= 1 # 2000000)%Q) /\
  (forall x y, a = mkCoord (Fin x) (Fin y) -> approx_eq_coord (approx_coord a) a = true).
Proof.
  split; [|split].
  - unfold approx_eq_coord. rewrite andb_true_iff, !approx_eq_iff. reflexivity.
  - intros x y ->. destruct (approx_near x) as (m & Em & Hm), (approx_near y) as (n & En & Hn). exists m, n.
    unfold approx_coord. cbn [lat lon]. rewrite Em, En. auto.
  - intros x y ->. unfold approx_eq_coord, approx_coord. cbn [lat lon].
    assert (H : forall q, approx_eq (approx (Fin q)) (Fin q) = true).
    { intros q. destruct (approx_near q) as (z & -> & H). apply approx_eq_fin. unfold TOL. lra. }
    now rewrite !H.
Qed.
Print Assumptions C26_coordinates.
Example C26_coordinates_case : approx_eq_coord (mkCoord (Fin (48 # 1)) (Fin (9 # 1))) (mkCoord (Fin (48000001 # 1000000)) (Fin (9 # 1))) = true /\
  approx_eq_coord (mkCoord (Fin (48 # 1)) (Fin (9 # 1))) (mkCoord (Fin (48 # 1)) (Fin (9000002 # 1000000))) = false /\
  approx_coord (mkCoord (Fin (12345678 # 10000000)) (Fin (9 # 1))) = mkCoord (Fin (1234568 # 1000000)) (Fin (9000000 # 1000000)).
Proof. repeat split. Qed.

(** *** entries of the queue *)
(** For finite costs, [==], [cmp] and [partial_cmp] agree, [cmp] never panics, and
    swapping the entries swaps the result. Entries are equal if node and
    direction are the same and the costs are close. *)
Theorem C26_entries_partial a b x y : cn_cost a = Fin x -> cn_cost b = Fin y ->
  (cn_eq a b = true <-> cn_idx a = cn_idx b /\ cn_dir a = cn_dir b /\ close (cn_cost a) (cn_cost b)) /\
  exists c, cn_ord a b = Ok c /\ cn_ord b a = Ok (CompOpp c) /\ cn_cmp a b = Some c /\ (c = Eq <-> cn_eq a b = true).
Proof.
  intros Ea Eb. assert (Hd : dir_eq (cn_dir a) (cn_dir b) = true <-> cn_dir a = cn_dir b).
  { destruct (cn_dir a), (cn_dir b); cbn; split; congruence. }
  assert (He : cn_eq a b = true <-> cn_idx a = cn_idx b /\ cn_dir a = cn_dir b /\ close (cn_cost a) (cn_cost b)).
  { unfold cn_eq. rewrite !andb_true_iff, Nat.eqb_eq, Hd, approx_eq_iff. tauto. }
  split; [exact He|]. destruct (C26_approx_order_partial x y) as (_ & _ & Hc & (c & E1 & E2)).
  rewrite <- Ea, <- Eb in Hc, E1, E2. unfold cn_ord, cn_cmp. rewrite E1, E2. cbn [bind].
  unfold approx_ord in E1. destruct (approx_cmp (cn_cost a) (cn_cost b)) as [c'|] eqn:E; [|discriminate].
  injection E1 as ->. eexists. split; [reflexivity|]. rewrite (Nat.compare_antisym (cn_idx a)).
  split; [|split; [reflexivity|]].
  - f_equal. destruct c, (Nat.compare (cn_idx a) (cn_idx b)), (cn_dir a), (cn_dir b); reflexivity.
  - rewrite He. destruct c; cbn [then_with].
    + destruct (Nat.compare_spec (cn_idx a) (cn_idx b)) as [Hi|Hi|Hi]; cbn [then_with].
      * rewrite <- Hc. destruct (cn_dir a), (cn_dir b); cbn; split; (try congruence); tauto || (intros (_ & ? & _); congruence).
      * split; [discriminate|lia].
      * split; [discriminate|lia].
    + split; [discriminate|]. intros (_ & _ & H). apply Hc in H. discriminate.
    + split; [discriminate|]. intros (_ & _ & H). apply Hc in H. discriminate.
Qed.
Print Assumptions C26_entries_partial.

(** But they aren't ordered: the queue may be asked to hold three entries, each
    of them greater than the next one, in a circle. *)
Theorem C26_entries_refuted : exists a b c, cn_ord a b = Ok Gt /\ cn_ord b c = Ok Gt /\ cn_ord c a = Ok Gt.
Proof.
  exists (mkCN 5 (Fin 0) FWD), (mkCN 3 (Fin (1 # 1000000)) FWD), (mkCN 1 (Fin (2 # 1000000)) FWD). repeat split.
Qed.
Print Assumptions C26_entries_refuted.
Example C26_entries_case : cn_ord (mkCN 5 (Fin 1) FWD) (mkCN 4 (Fin 2) BWD) = Ok Lt /\ cn_ord (mkCN 4 (Fin 1) FWD) (mkCN 4 (Fin 1) BWD) = Ok Gt /\
  cn_eq (mkCN 4 (Fin 1) FWD) (mkCN 4 (Fin (1000001 # 1000000)) FWD) = true.
Proof. repeat split. Qed.

(** *** nodes *)
(** Nodes of a graph are equal exactly if they have the same id, and then they
    are the same in everything. *)
Theorem C26_nodes hav c ch1 ch2 es ns g i j a b :
  1 <= ch1 -> 1 <= ch2 -> build hav c ch1 ch2 es ns = Ok g -> node_create g i = Ok a -> node_create g j = Ok b ->
  (node_eq a b = true <-> n_id a = n_id b) /\ (node_eq a b = true -> a = b).
Proof.
  intros H1 H2 E Ea Eb. destruct (C01_node_set _ _ _ _ _ _ _ H1 H2 E) as (_ & Hlt & _).
  unfold node_create in Ea, Eb. apply bind_ok in Ea, Eb. destruct Ea as (x & Ex & Ea), Eb as (y & Ey & Eb).
  pose proof Ea as Ea'. pose proof Eb as Eb'.
  apply bind_ok in Ea, Eb. destruct Ea as (ca & Eca & Ea), Eb as (cb & Ecb & Eb). apply bind_ok in Ea, Eb.
  destruct Ea as (la & Ela & Ea), Eb as (lb & Elb & Eb). injection Ea as <-. injection Eb as <-. unfold node_eq. cbn [n_idx n_id].
  rewrite Nat.eqb_eq. assert (H : i = j <-> x = y).
  { split; [intros ->; congruence|]. intros ->. destruct (lt_eq_lt_dec i j) as [[Hl|Hl]|Hl]; [|auto|].
    - specialize (Hlt _ _ _ _ Ex Ey Hl). lia.
    - specialize (Hlt _ _ _ _ Ey Ex Hl). lia. }
  split; [exact H|]. intros ->. congruence.
Qed.
Print Assumptions C26_nodes.
Example C26_nodes_case : exists g a b, build ex_hav (ex_cfg false) 1 1 ex_es ex_ns = Ok g /\ node_create g 0 = Ok a /\ node_create g 1 = Ok b /\
  node_eq a b = false /\ node_eq a a = true.
Proof. do 3 eexists. split; [vm_compute; reflexivity|]. repeat (split; [vm_compute; reflexivity|]). vm_compute. reflexivity. Qed.
