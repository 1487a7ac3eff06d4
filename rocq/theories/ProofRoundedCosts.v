(** Costs of a path, summed up with rounding *)
From Coq Require Import String List Bool Arith ZArith QArith Lia Lqa.
From Verif Require Import Base F64 ModelUnits ModelConfig ModelGraph ModelBuild ModelDijkstra Lib ProofProps ProofPaths
  Spec SpecRouting SpecPaths ModelRounded SpecRounded ProofRounded ProofRoundedRun.
Import ListNotations.
Open Scope list_scope.
Open Scope nat_scope.

Section Costs.
  Variables (rnd : Q -> Q) (u eta : Q).
  Hypothesis R : rounding u eta rnd.
  Notation near := (ProofRounded.near u eta).

  Lemma rvadd_nth a : forall b i x y, nth_error a i = Some x -> nth_error b i = Some y ->
    nth_error (rvadd (rfin rnd) a b) i = Some (radd (rfin rnd) x y).
  Proof.
    induction a as [|v a IH]; intros b i x y Hx Hy; [destruct i; discriminate|].
    destruct b as [|w b]; [destruct i; discriminate|]. destruct i as [|i]; simpl in *; [congruence|now apply IH].
  Qed.
  Lemma rvadd_length a : forall b, length a = length b -> length (rvadd (rfin rnd) a b) = length a.
  Proof. induction a as [|v a IH]; intros [|w b] H; simpl in *; try reflexivity; try discriminate. f_equal. apply IH. lia. Qed.

  Lemma rcosts_loop g : aligned_metrics g -> nonneg_metrics g -> forall es n cs,
    length cs = metric_dim g -> (forall e, In e es -> exists ms, edge_metrics g e = Ok ms) ->
    exists cs', foldM (fun acc e => do m <- edge_metrics g e; Ok (rvadd (rfin rnd) acc m)) es cs = Ok cs' /\
      length cs' = metric_dim g /\
      forall i q a x, sums g i es q -> i < metric_dim g -> nth_error cs i = Some (Fin x) -> near n n a x -> (0 <= x)%Q ->
        exists y, nth_error cs' i = Some (Fin y) /\ near (n + length es) (n + length es) (a + q) y /\ (0 <= y)%Q.
  Proof.
    intros Hal Hnn es. induction es as [|e es IH]; intros n cs Hl He.
    - exists cs. split; [reflexivity|]. split; [auto|]. intros i q a x Hs _ Hx Hn H0. inversion Hs; subst. exists x. split; [auto|].
      split; [|auto]. simpl. rewrite Nat.add_0_r. eapply near_proper; [| |exact Hn]; [ring|reflexivity].
    - destruct (He e (or_introl eq_refl)) as [ms Em]. cbn [foldM]. rewrite Em. cbn [bind].
      destruct (IH (S n) (rvadd (rfin rnd) cs ms)) as (cs' & Ef & Hl' & H).
      { rewrite rvadd_length; [auto|]. rewrite Hl. symmetry. exact (Hal _ _ Em). }
      { intros e' Hi. apply He. now right. }
      exists cs'. split; [exact Ef|]. split; [auto|]. intros i q a x Hs Hi Hx Hn H0.
      inversion Hs as [|e' es' b q' Hb Hs']; subst. unfold metric_of in Hb. rewrite Em in Hb.
      assert (Pb : (0 <= b)%Q) by (exact (Hnn _ _ _ Em (nth_error_In _ _ Hb))).
      assert (Nb : near n 0 b b).
      { eapply near_weaken; [exact R| | |]; [apply Nat.le_0_l|apply le_n|].
        unfold ProofRounded.near. simpl. change (nq 0) with 0%Q. split; [auto|]. split; lra. }
      pose proof (near_plus _ _ _ R _ _ _ _ _ _ _ H0 Pb Hn Nb) as Hs2.
      assert (P2 : (0 <= rnd (x + b))%Q) by (eapply rnd_nonneg; [exact R|lra]).
      destruct (H i q' (a + b)%Q (rnd (x + b)) Hs' Hi) as (y & Hy & Hny & H0y).
      { rewrite (rvadd_nth _ _ _ _ _ Hx Hb). reflexivity. }
      { eapply near_weaken; [exact R| | |exact Hs2]; lia. }
      { exact P2. }
      exists y. split; [auto|]. split; [|auto]. simpl. rewrite <- plus_n_Sm.
      eapply near_proper; [| |exact Hny]; [ring|reflexivity].
  Qed.

  Lemma rcalc_costs_near g p : aligned_metrics g -> nonneg_metrics g ->
    (forall e, In e (p_edges p) -> exists ms, edge_metrics g e = Ok ms) -> p_costs p = None ->
    exists p' cs, rcalc_costs (rfin rnd) g p = Ok p' /\ path_costs p' = Ok cs /\ length cs = metric_dim g /\
      same_route p p' /\ p_edges p' = p_edges p /\
      forall i q, i < metric_dim g -> sums g i (p_edges p) q ->
        exists y, nth_error cs i = Some (Fin y) /\ near (length (p_edges p)) (length (p_edges p)) q y /\ (0 <= y)%Q.
  Proof.
    intros Hal Hnn He Hc. unfold rcalc_costs. rewrite Hc.
    destruct (rcosts_loop g Hal Hnn (p_edges p) 0 (repeat f0 (metric_dim g)) (repeat_length _ _) He) as (cs & -> & Hl & H).
    cbn [bind]. eexists. exists cs. split; [reflexivity|]. split; [reflexivity|]. split; [auto|]. split; [now repeat split|].
    split; [auto|]. intros i q Hi Hs.
    destruct (H i q 0%Q 0%Q Hs Hi) as (y & Hy & Hn & H0).
    - now apply nth_error_repeat.
    - unfold ProofRounded.near. simpl. change (nq 0) with 0%Q. split; [lra|]. split; lra.
    - lra.
    - exists y. split; [auto|]. split; [|auto]. eapply near_proper; [| |exact Hn]; [ring|reflexivity].
  Qed.
End Costs.
