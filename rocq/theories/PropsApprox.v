(** Property C26: approximate comparison of numbers *)
From Coq Require Import List Bool QArith Qabs Lqa.
From Verif Require Import Base F64 ModelApprox ProofApprox Spec.
Import ListNotations.

(** *** what holds: exact characterization for all values *)
Theorem C26_approx_eq_partial x y : approx_eq x y = true <-> close x y.
Proof. apply approx_eq_iff. Qed.
Print Assumptions C26_approx_eq_partial.

Theorem C26_approx_reflexive_symmetric x y :
  (forall q, approx_eq (Fin q) (Fin q) = true) /\ approx_eq x y = approx_eq y x.
Proof.
  split.
  - intros q. apply approx_eq_fin. setoid_replace (q - q)%Q with 0%Q by ring. reflexivity.
  - apply eq_iff_eq_true. rewrite !approx_eq_iff.
    split; intros (a & b & -> & -> & H); exists b, a; (split; [reflexivity|]); (split; [reflexivity|]);
      rewrite Qabs_Qminus; exact H.
Qed.
Print Assumptions C26_approx_reflexive_symmetric.

(** the order of finite values agrees with the order of the numbers, except
    that close values count as equal; it is total and antisymmetric *)
Theorem C26_approx_order_partial a b :
  (approx_cmp (Fin a) (Fin b) = Some Lt <-> (a + (3 # 2000000) <= b)%Q) /\
  (approx_cmp (Fin a) (Fin b) = Some Gt <-> (b + (3 # 2000000) <= a)%Q) /\
  (approx_cmp (Fin a) (Fin b) = Some Eq <-> close (Fin a) (Fin b)) /\
  (exists c, approx_ord (Fin a) (Fin b) = Ok c /\ approx_ord (Fin b) (Fin a) = Ok (CompOpp c)).
Proof.
  split; [apply approx_cmp_lt|]. split; [apply approx_cmp_gt|]. split.
  - rewrite approx_cmp_eq. rewrite <- approx_eq_fin. apply approx_eq_iff.
  - unfold approx_ord. destruct (approx_cmp_fin a b) as [c Hc]. exists c. rewrite Hc. split; auto.
    destruct c; simpl.
    + apply approx_cmp_eq in Hc. rewrite Qabs_Qminus in Hc. apply approx_cmp_eq in Hc. now rewrite Hc.
    + apply approx_cmp_lt in Hc. apply approx_cmp_gt in Hc. now rewrite Hc.
    + apply approx_cmp_gt in Hc. apply approx_cmp_lt in Hc. now rewrite Hc.
Qed.
Print Assumptions C26_approx_order_partial.

(** strictly smaller is transitive on finite values *)
Theorem C26_approx_lt_transitive_partial a b c :
  approx_lt (Fin a) (Fin b) = true -> approx_lt (Fin b) (Fin c) = true ->
  approx_lt (Fin a) (Fin c) = true.
Proof.
  unfold approx_lt.
  destruct (approx_cmp (Fin a) (Fin b)) as [[]|] eqn:E1; try discriminate.
  destruct (approx_cmp (Fin b) (Fin c)) as [[]|] eqn:E2; try discriminate. intros _ _.
  apply approx_cmp_lt in E1, E2. unfold TOL in *.
  assert (H : (a + TOL <= c)%Q) by (unfold TOL; lra).
  apply approx_cmp_lt in H. now rewrite H.
Qed.
Print Assumptions C26_approx_lt_transitive_partial.

(** vectors: [a <= b] as used by the explorator's tolerance test *)
Theorem C26_approx_vec x y :
  (approx_eq_vec x y = true <-> close_vec x y) /\
  (approx_le_vec x y = true <->
   forall i a b, nth_error x i = Some a -> nth_error y i = Some b -> approx_cmp a b <> Some Gt).
Proof.
  split.
  - rewrite approx_eq_vec_nth. unfold close_vec.
    split; intros H i a b Ha Hb; apply approx_eq_iff; eapply H; eauto.
  - revert y. induction x as [|u x IH]; intros [|w y]; simpl.
    + split; auto. intros _ [|i]; discriminate.
    + split; auto. intros _ [|i]; discriminate.
    + split; auto. intros _ [|i] a b _ H; discriminate H.
    + split.
      * intros H [|i] a b Ha Hb; simpl in *.
        -- injection Ha as <-. injection Hb as <-. intros E. rewrite E in H. discriminate.
        -- apply (proj1 (IH y)) with (i := i); auto.
           destruct (approx_cmp u w) as [[]|]; auto; discriminate.
      * intros H. pose proof (H O u w eq_refl eq_refl) as H0.
        assert (Hr : approx_le_vec x y = true) by (apply IH; intros i; apply (H (S i))).
        destruct (approx_cmp u w) as [[]|]; auto; congruence.
Qed.
Print Assumptions C26_approx_vec.

(** ... and `partial_cmp`: two vectors compare as all of their entries do *)
Theorem C26_approx_cmp_vec x y o :
  approx_cmp_vec x y = Some o <->
  (exists a b, nth_error x 0 = Some a /\ nth_error y 0 = Some b) /\
  forall i a b, nth_error x i = Some a -> nth_error y i = Some b -> approx_cmp a b = Some o.
Proof.
  assert (Hc : forall (x y : list f64) i a b, nth_error x i = Some a -> nth_error y i = Some b -> In (a, b) (combine x y)).
  { induction x0 as [|u x0 IH]; intros [|w y0] [|i] a b Ha Hb; try discriminate; simpl in *; [left; congruence|right; eauto]. }
  assert (Hi : forall (x y : list f64) a b, In (a, b) (combine x y) -> exists i, nth_error x i = Some a /\ nth_error y i = Some b).
  { induction x0 as [|u x0 IH]; intros [|w y0] a b H; try contradiction. destruct H as [H|H].
    - injection H as <- <-. exists 0%nat. auto.
    - destruct (IH _ _ _ H) as (i & Hi). exists (S i). auto. }
  assert (Heq : forall p q, ocmp_eqb p q = true <-> p = q).
  { intros [[]|] [[]|]; simpl; split; congruence. }
  unfold approx_cmp_vec. destruct x as [|u x], y as [|w y]; simpl.
  1-3: (split; [discriminate|intros [(a & b & Ha & Hb) _]; discriminate]).
  destruct (existsb _ _) eqn:Ex.
  - split; [discriminate|]. intros [_ H]. apply existsb_exists in Ex. destruct Ex as (q & Hq & Ne).
    apply in_map_iff in Hq. destruct Hq as ([a b] & <- & Hab). cbn [fst snd] in Ne.
    destruct (Hi _ _ _ _ Hab) as (i & Ha & Hb). rewrite (H 0%nat u w eq_refl eq_refl), (H (S i) a b Ha Hb) in Ne.
    destruct o; discriminate.
  - split.
    + intros E0. split; [eauto|]. intros [|i] a b Ha Hb; simpl in Ha, Hb; [congruence|].
      apply Hc with (1 := Ha) in Hb. destruct (ocmp_eqb (approx_cmp u w) (approx_cmp a b)) eqn:Eq; [apply Heq in Eq; congruence|].
      exfalso. apply Bool.not_true_iff_false in Ex. apply Ex. apply existsb_exists. exists (approx_cmp a b).
      split; [apply in_map_iff; exists (a, b); auto|now rewrite Eq].
    + intros [_ H]. exact (H 0%nat u w eq_refl eq_refl).
Qed.
Print Assumptions C26_approx_cmp_vec.
Example C26_approx_cmp_vec_case : approx_cmp_vec [Fin 1; Fin 2] [Fin 2; Fin 3] = Some Lt /\ approx_cmp_vec [Fin 1; Fin 2] [Fin 2; Fin 1] = None /\
  approx_cmp_vec [Fin 1; Fin 2] [Fin 2; Fin 2] = None.
Proof. repeat split. Qed.

(** *** what fails *)
(** `Approx` implements `Eq`, but equality is not transitive *)
Theorem C26_approx_transitive_refuted :
  exists x y z, approx_eq x y = true /\ approx_eq y z = true /\ approx_eq x z = false.
Proof. exists (Fin 0), (Fin (1 # 1000000)), (Fin (2 # 1000000)). repeat split. Qed.
Print Assumptions C26_approx_transitive_refuted.
(** not reflexive on infinite values, while [cmp] calls them equal; [cmp] panics on NaN *)
Theorem C26_approx_infinite_refuted :
  approx_eq PInf PInf = false /\ approx_ord PInf PInf = Ok Eq /\ approx_ord NaN NaN = Panic.
Proof. repeat split. Qed.
Print Assumptions C26_approx_infinite_refuted.
(** NaN costs are within any tolerance *)
Theorem C26_nan_within_tolerance : approx_le_vec [NaN] [Fin 1] = true.
Proof. reflexivity. Qed.
Example C26_case :
  close (Fin 1) (Fin (1 + (1 # 1000000))) /\
  approx_lt (Fin 1) (Fin 2) = true /\ approx_lt (Fin 2) (Fin 3) = true /\
  approx_eq_vec [Fin 1; Fin 2] [Fin 1; Fin (2000001 # 1000000)] = true.
Proof.
  split; [eexists _, _; repeat split|]. repeat split.
Qed.
