(** Lemmas about the cells of the exploration *)
From Coq Require Import List Bool Arith Lia QArith Qabs Lqa.
From Verif Require Import Base F64 Lib ModelApprox ModelUnits ModelConfig ModelGraph ModelBuild ModelDijkstra ModelExplorator
  Spec SpecRouting SpecPaths SpecExplorator SpecCells ProofApprox ProofDijkstra ProofExplorator PropsRouting.
Import ListNotations.
Open Scope nat_scope.

Definition qdot (a b : list Q) : Q := fold_right (fun p acc => (fst p * snd p + acc)%Q) 0%Q (combine a b).

Lemma weighted_fin a : forall b, weighted_sum (map Fin a) (map Fin b) = Some (qdot a b).
Proof.
  induction a as [|x a IH]; intros [|y b]; try reflexivity. unfold weighted_sum in *. cbn [map combine fold_right].
  rewrite IH. reflexivity.
Qed.
Lemma qdot_cons x a y b : (qdot (x :: a) (y :: b) == x * y + qdot a b)%Q.
Proof. reflexivity. Qed.
Lemma qdot_comm a : forall b, (qdot a b == qdot b a)%Q.
Proof. induction a as [|x a IH]; intros [|y b]; try reflexivity. rewrite !qdot_cons, IH. ring. Qed.
Lemma qdot_nil a : (qdot a [] == 0)%Q.
Proof. now destruct a. Qed.

Definition qsub (a b : list Q) : list Q := map (fun p => (fst p + - snd p)%Q) (combine a b).
Lemma vsub_fin a : forall b, vsub (map Fin a) (map Fin b) = map Fin (qsub a b).
Proof. induction a as [|x a IH]; intros [|y b]; try reflexivity. cbn. now rewrite IH. Qed.
Lemma qsub_length a b : length a = length b -> length (qsub a b) = length a.
Proof. intros H. unfold qsub. rewrite map_length, combine_length. lia. Qed.
Lemma qdot_qsub a : forall b x, length a = length b -> (qdot (qsub a b) x == qdot a x - qdot b x)%Q.
Proof.
  induction a as [|y a IH]; intros [|z b] x H; try discriminate; [cbn; ring|]. destruct x as [|w x].
  - rewrite !qdot_nil. ring.
  - change (qsub (y :: a) (z :: b)) with ((y + - z)%Q :: qsub a b). rewrite !qdot_cons, IH by (injection H; auto). ring.
Qed.

Lemma map_upd {A B} (f : A -> B) l : forall i x, map f (upd l i x) = upd (map f l) i (f x).
Proof. induction l as [|y l IH]; intros [|i] x; cbn; auto. now rewrite IH. Qed.
Lemma map_repeat' {A B} (f : A -> B) x n : map f (repeat x n) = repeat (f x) n.
Proof. induction n; cbn; congruence. Qed.
Lemma qdot_zeros n : forall x, (qdot (repeat 0%Q n) x == 0)%Q.
Proof. induction n as [|n IH]; intros [|y x]; try reflexivity. cbn [repeat]. rewrite qdot_cons, IH. ring. Qed.
Lemma qdot_ones : forall x, (qdot (repeat 1%Q (length x)) x == fold_right Qplus 0 x)%Q.
Proof. induction x as [|y x IH]; [reflexivity|]. cbn [length repeat]. rewrite qdot_cons, IH. cbn. ring. Qed.
Lemma qdot_unit n : forall i x a, i < n -> nth_error x i = Some a -> (qdot (upd (repeat 0%Q n) i 1%Q) x == a)%Q.
Proof.
  induction n as [|n IH]; intros i x a Hi E; [lia|]. destruct x as [|y x]; [now destruct i|]. destruct i as [|i]; cbn [repeat upd].
  - injection E as ->. rewrite qdot_cons, qdot_zeros. ring.
  - rewrite qdot_cons, (IH i x a) by (auto; lia). ring.
Qed.

(** the metrics not considered *)
Definition ignored (imc : list bool) : list nat := map fst (filter (fun ib => negb (snd ib)) (enumerate imc)).
Lemma ignored_in imc i : In i (ignored imc) <-> nth_error imc i = Some false.
Proof.
  unfold ignored. rewrite in_map_iff. split.
  - intros ((j & b) & <- & H). apply filter_In in H. destruct H as [H Hb]. apply enumerate_in in H. destruct b; [discriminate|exact H].
  - intros H. exists (i, false). split; auto. apply filter_In. split; [now apply enumerate_in|reflexivity].
Qed.
Lemma ignored_count imc : length (ignored imc) + considered_metrics imc = length imc.
Proof.
  unfold ignored, considered_metrics, enumerate. rewrite map_length. generalize 0 as s.
  induction imc as [|[] imc IH]; intros s; [reflexivity| |]; cbn [length seq combine filter snd negb count_occ];
    destruct (bool_dec _ _); try discriminate; cbn [length]; specialize (IH (S s)); lia.
Qed.

Lemma mapM_map {A B C} (f : B -> res C) (h : A -> B) l : mapM f (map h l) = mapM (fun x => f (h x)) l.
Proof. induction l; cbn; auto. now rewrite IHl. Qed.

(** the rows of the system in closed form; costs as rational vectors *)
Definition unit_row (dim i : nat) : list Q := upd (repeat 0%Q dim) i 1%Q.
Definition main_rows (dim : nat) (imc : list bool) (c0 : list Q) (cs : list (list Q)) : list (list Q) :=
  map (fun c => qsub c0 c) cs ++ map (unit_row dim) (ignored imc).

Lemma system_eq q v0 vs c0 cs : length (xq_imc q) = xq_dim q ->
  p_costs v0 = Some (map Fin c0) -> Forall2 (fun v c => p_costs v = Some (map Fin c)) vs cs ->
  create_linear_system q (v0 :: vs) =
    let rows := main_rows (xq_dim q) (xq_imc q) c0 cs in
    if xq_dim q <? length rows then Panic
    else match xq_dim q - length rows with
         | 0 => Ok (Some (map (map Fin) rows, map Fin (repeat 0%Q (length rows))))
         | 1 => Ok (Some (map (map Fin) (rows ++ [repeat 1%Q (xq_dim q)]), map Fin (repeat 0%Q (length rows) ++ [1%Q])))
         | _ => Ok None
         end.
Proof.
  intros Hl H0 Hs. unfold create_linear_system. rewrite (proj2 (path_costs_ok v0 _) H0). cbn [bind].
  assert (E : mapM path_costs vs = Ok (map (map Fin) cs)).
  { apply mapM_ok. clear -Hs. induction Hs; constructor; auto. now apply path_costs_ok. }
  rewrite E. cbn [bind].
  set (F := filter _ _).
  assert (E1 : mapM (fun ib : nat * bool => set (repeat f0 (xq_dim q)) (fst ib) (Fin 1)) F
               = Ok (map (fun ib => map Fin (unit_row (xq_dim q) (fst ib))) F)).
  { apply mapM_total. intros [i b] Hin. apply set_ok. unfold F in Hin. apply filter_In in Hin. destruct Hin as [Hin _].
    apply enumerate_in in Hin. cbn [fst]. rewrite repeat_length. split.
    - rewrite <- Hl. apply nth_error_Some. congruence.
    - unfold unit_row. now rewrite map_upd, map_repeat'. }
  rewrite E1. cbn [bind].
  assert (Er : map (fun c => vsub (map Fin c0) c) (map (map Fin) cs) ++ map (fun ib => map Fin (unit_row (xq_dim q) (fst ib))) F
               = map (map Fin) (main_rows (xq_dim q) (xq_imc q) c0 cs)).
  { unfold main_rows. rewrite map_app, !map_map. f_equal.
    - apply map_ext. intros c. apply vsub_fin.
    - unfold ignored. fold F. now rewrite !map_map. }
  rewrite Er, map_length. cbv zeta. destruct (_ <? _); [reflexivity|]. destruct (_ - _) as [|[|]]; [| |reflexivity].
  - now rewrite map_repeat'.
  - rewrite !map_app, !map_repeat'. cbn [map]. now rewrite map_repeat'.
Qed.

Lemma main_length dim imc c0 cs : length imc = dim ->
  length (main_rows dim imc c0 cs) + considered_metrics imc = dim + length cs.
Proof. intros <-. unfold main_rows. rewrite app_length, !map_length. pose proof (ignored_count imc). lia. Qed.

Lemma upd_length' {A} (l : list A) : forall i x, length (upd l i x) = length l.
Proof. induction l; intros [|i] x; cbn; auto. Qed.

Lemma main_wide dim imc c0 cs r : length c0 = dim -> Forall (fun c => length c = dim) cs ->
  In r (main_rows dim imc c0 cs) -> length r = dim.
Proof.
  intros H0 Hs Hr. unfold main_rows in Hr. apply in_app_or in Hr. destruct Hr as [Hr|Hr]; apply in_map_iff in Hr.
  - destruct Hr as (c & <- & Hc). rewrite Forall_forall in Hs. rewrite qsub_length; auto. rewrite (Hs c Hc). auto.
  - destruct Hr as (i & <- & _). unfold unit_row. now rewrite upd_length', repeat_length.
Qed.

(** *** What a solution means *)
Lemma solves_fin rows x b : solves (map (map Fin) rows) (map Fin x) (map Fin b) <-> Forall2 (fun r y => (qdot r x == y)%Q) rows b.
Proof.
  unfold solves. split.
  - revert b. induction rows as [|r rows IH]; intros [|y b] H; cbn in H; inversion H; subst; constructor.
    + destruct H3 as (w & z & E & Ez & Hw). injection Ez as <-. rewrite weighted_fin in E. injection E as <-. exact Hw.
    + now apply IH.
  - induction 1; cbn; constructor; auto. exists (qdot x0 x), y. split; [apply weighted_fin|auto].
Qed.

Lemma Forall2_repeat {A B} (R : A -> B -> Prop) l y : Forall2 R l (repeat y (length l)) <-> forall x, In x l -> R x y.
Proof.
  induction l as [|x l IH]; cbn [length repeat].
  - split; [intros _ ? []|constructor].
  - split.
    + intros H. inversion H; subst. intros z [<-|Hz]; auto. now apply IH.
    + intros H. constructor; [apply H; now left|]. apply IH. intros z Hz. apply H. now right.
Qed.

Lemma main_solved dim imc c0 cs x : length imc = dim -> length c0 = dim -> Forall (fun c => length c = dim) cs -> length x = dim ->
  ((forall r, In r (main_rows dim imc c0 cs) -> (qdot r x == 0)%Q) <->
   (forall c, In c cs -> (qdot c x == qdot c0 x)%Q) /\ (forall i a, nth_error imc i = Some false -> nth_error x i = Some a -> (a == 0)%Q)).
Proof.
  intros Hi H0 Hs Hx. unfold main_rows. rewrite Forall_forall in Hs. split.
  - intros H. split.
    + intros c Hc. specialize (H (qsub c0 c)). rewrite qdot_qsub in H by (rewrite (Hs c Hc); auto).
      assert (E : (qdot c0 x - qdot c x == 0)%Q) by (apply H, in_or_app; left; apply in_map_iff; eauto). lra.
    + intros i a Hf Ha. specialize (H (unit_row dim i)). unfold unit_row in H. rewrite (qdot_unit dim i x a) in H.
      * apply H. apply in_or_app. right. apply in_map_iff. exists i. split; auto. now apply ignored_in.
      * rewrite <- Hi. apply nth_error_Some. congruence.
      * exact Ha.
  - intros [H1 H2] r Hr. apply in_app_or in Hr. destruct Hr as [Hr|Hr]; apply in_map_iff in Hr.
    + destruct Hr as (c & <- & Hc). rewrite qdot_qsub by (rewrite (Hs c Hc); auto). rewrite (H1 c Hc). ring.
    + destruct Hr as (i & <- & Hin). apply ignored_in in Hin.
      assert (Hlt : i < dim) by (rewrite <- Hi; apply nth_error_Some; congruence).
      destruct (nth_error x i) as [a|] eqn:Ea; [|apply nth_error_None in Ea; lia].
      unfold unit_row. rewrite (qdot_unit dim i x a) by auto. eauto.
Qed.

Lemma cell_vectors dim cell : costed dim cell ->
  exists cs, Forall2 (fun v c => p_costs v = Some (map Fin c)) cell cs /\ Forall (fun c => length c = dim) cs.
Proof.
  induction cell as [|v cell IH]; intros H.
  - exists []. auto.
  - destruct IH as (cs & A & B); [intros p Hp; apply H; now right|].
    destruct (H v (or_introl eq_refl)) as (c & E & (qs & ->) & El). rewrite map_length in El.
    exists (qs :: cs). split; constructor; auto.
Qed.

Lemma cost_under_fin x v c w : p_costs v = Some (map Fin c) -> (cost_under (map Fin x) v w <-> w = qdot x c).
Proof.
  intros E. unfold cost_under. split.
  - intros (cs & E' & H). assert (cs = map Fin c) by congruence. subst. rewrite weighted_fin in H. congruence.
  - intros ->. exists (map Fin c). split; auto. apply weighted_fin.
Qed.

Lemma equally_iff x v0 vs c0 cs : p_costs v0 = Some (map Fin c0) -> Forall2 (fun v c => p_costs v = Some (map Fin c)) vs cs ->
  (equally_expensive (map Fin x) (v0 :: vs) <-> forall c, In c cs -> (qdot c x == qdot c0 x)%Q).
Proof.
  intros E0 Hs. split.
  - intros H c Hc. apply In_nth_error in Hc. destruct Hc as (k & Hk).
    destruct (nth_error vs k) as [v|] eqn:Ev; [|apply nth_error_None in Ev; pose proof (Forall2_len _ _ _ Hs);
      assert (k < length cs) by (apply nth_error_Some; congruence); lia].
    destruct (Forall2_nth _ _ _ _ _ Hs Ev) as (c' & Hc' & Ec). assert (c' = c) by congruence. subst c'.
    rewrite (qdot_comm c), (qdot_comm c0).
    apply (H v v0); [right; eapply nth_error_In; eauto|now left|now apply (cost_under_fin x v c)|now apply (cost_under_fin x v0 c0)].
  - intros H.
    assert (G : forall p w, In p (v0 :: vs) -> cost_under (map Fin x) p w -> (w == qdot c0 x)%Q).
    { intros p w [<-|Hp] Hw.
      - apply (cost_under_fin x v0 c0) in Hw; auto. subst w. apply qdot_comm.
      - apply In_nth_error in Hp. destruct Hp as (k & Hk). destruct (Forall2_nth _ _ _ _ _ Hs Hk) as (c & Hc & Ec).
        apply (cost_under_fin x p c) in Hw; auto. subst w. rewrite qdot_comm. apply H. eapply nth_error_In; eauto. }
    intros p p' w w' Hp Hp' Hw Hw'. rewrite (G p w Hp Hw), (G p' w' Hp' Hw'). reflexivity.
Qed.

Lemma ignores_iff x imc : length x = length imc ->
  (ignores (map Fin x) imc <-> forall i a, nth_error imc i = Some false -> nth_error x i = Some a -> (a == 0)%Q).
Proof.
  intros Hl. unfold ignores. split.
  - intros H i a Hi Ha. destruct (H i Hi) as (a' & E & Hz). rewrite nth_error_map, Ha in E. cbn in E. injection E as ->. exact Hz.
  - intros H i Hi. destruct (nth_error x i) as [a|] eqn:Ea.
    + exists a. rewrite nth_error_map, Ea. split; [reflexivity|eauto].
    + apply nth_error_None in Ea. assert (i < length imc) by (apply nth_error_Some; congruence). lia.
Qed.

Lemma Forall2_snoc {A B} (R : A -> B -> Prop) l x l' y : Forall2 R (l ++ [x]) (l' ++ [y]) <-> Forall2 R l l' /\ R x y.
Proof.
  split.
  - intros H. apply Forall2_app_inv_l in H. destruct H as (a & b & H1 & H2 & E). inversion H2 as [|? z ? ? Hz Hn]; subst.
    inversion Hn; subst. apply app_inj_tail in E. destruct E as [-> ->]. auto.
  - intros [H1 H2]. apply Forall2_app; auto.
Qed.

Lemma adds_up_iff x : adds_up (map Fin x) <-> (fold_right Qplus 0 x == 1)%Q.
Proof.
  split; [|intros H; exists x; auto]. intros (qs & E & H). assert (qs = x); [|congruence].
  clear H. revert qs E. induction x; intros [|q qs] E; try discriminate; auto. cbn in E. injection E as -> E. f_equal. auto.
Qed.

Lemma numbers_map rows : Forall numbers (map (map Fin) rows).
Proof. apply Forall_forall. intros r Hr. apply in_map_iff in Hr. destruct Hr as (x & <- & _). now exists x. Qed.

(** the system of a cell: its shape and its solutions *)
Lemma system_spec q cell : length (xq_imc q) = xq_dim q -> costed (xq_dim q) cell -> cell <> [] ->
  (S (considered_metrics (xq_imc q)) < length cell -> create_linear_system q cell = Panic) /\
  (length cell < considered_metrics (xq_imc q) -> create_linear_system q cell = Ok None) /\
  (length cell = considered_metrics (xq_imc q) \/ length cell = S (considered_metrics (xq_imc q)) ->
   exists rows b, create_linear_system q cell = Ok (Some (rows, b)) /\ table (xq_dim q) (xq_dim q) rows /\
     Forall numbers rows /\ length b = xq_dim q /\ numbers b /\
     (length cell = S (considered_metrics (xq_imc q)) -> b = map Fin (repeat 0%Q (xq_dim q))) /\
     forall x, numbers x -> length x = xq_dim q ->
       (solves rows x b <-> equally_expensive x cell /\ ignores x (xq_imc q) /\
                            (length cell = considered_metrics (xq_imc q) -> adds_up x))).
Proof.
  intros Hl Hc Hne. destruct cell as [|v0 vs]; [congruence|]. clear Hne.
  destruct (cell_vectors _ _ Hc) as (cs0 & Hs & Hw). inversion Hs as [|? c0 ? cs E0 Hs' E1 E2]; subst. inversion Hw as [|? ? W0 Ws]; subst.
  rewrite (system_eq q v0 vs c0 cs Hl E0 Hs'). cbv zeta.
  pose proof (main_length (xq_dim q) (xq_imc q) c0 cs Hl) as Hm. pose proof (Forall2_len _ _ _ Hs') as Hlen.
  set (R := main_rows (xq_dim q) (xq_imc q) c0 cs) in *. set (K := considered_metrics (xq_imc q)) in *. cbn [length].
  assert (HK : K <= xq_dim q) by (unfold K; rewrite <- Hl; pose proof (ignored_count (xq_imc q)); lia).
  split; [|split].
  - intros H. destruct (Nat.ltb_spec (xq_dim q) (length R)); [reflexivity|lia].
  - intros H. destruct (Nat.ltb_spec (xq_dim q) (length R)); [lia|].
    destruct (xq_dim q - length R) as [|[|]] eqn:Ed; [lia|lia|reflexivity].
  - intros H. destruct (Nat.ltb_spec (xq_dim q) (length R)); [lia|].
    assert (Hwide : forall r, In r R -> length r = xq_dim q) by (intros r; apply main_wide; auto).
    destruct H as [H|H].
    + replace (xq_dim q - length R) with 1 by lia. do 2 eexists. split; [reflexivity|].
      split; [|split; [apply numbers_map|split; [|split; [now eexists|split; [lia|]]]]].
      * split; [rewrite map_length, app_length; cbn [length]; lia|].
        intros r Hr. apply in_map_iff in Hr. destruct Hr as (r' & <- & Hr). rewrite map_length. apply in_app_or in Hr.
        destruct Hr as [Hr|[<-|[]]]; auto. apply repeat_length.
      * rewrite map_length, app_length, repeat_length. cbn [length]. lia.
      * intros x (xs & ->) Hx. rewrite map_length in Hx. rewrite solves_fin, Forall2_snoc, Forall2_repeat.
        unfold R. rewrite main_solved by (auto; congruence). rewrite (equally_iff xs v0 vs c0 cs E0 Hs'), ignores_iff by congruence.
        rewrite <- Hx, qdot_ones, adds_up_iff. tauto.
    + replace (xq_dim q - length R) with 0 by lia. do 2 eexists. split; [reflexivity|].
      split; [|split; [apply numbers_map|split; [|split; [now eexists|split; [intros _; f_equal; f_equal; lia|]]]]].
      * split; [rewrite map_length; lia|].
        intros r Hr. apply in_map_iff in Hr. destruct Hr as (r' & <- & Hr). rewrite map_length. auto.
      * rewrite map_length, repeat_length. lia.
      * intros x (xs & ->) Hx. rewrite map_length in Hx. rewrite solves_fin, Forall2_repeat.
        unfold R. rewrite main_solved by (auto; congruence). rewrite (equally_iff xs v0 vs c0 cs E0 Hs'), ignores_iff by congruence.
        split; [intros [A B]; split; auto; split; auto; lia|tauto].
Qed.
