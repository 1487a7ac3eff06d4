(** What the explorator keeps, calculating in `f64` *)
From Coq Require Import String List Bool Arith ZArith QArith Qabs Lia Lqa NArith.
From Verif Require Import Base F64 Lib ModelApprox ModelUnits ModelConfig ModelGraph ModelBuild ModelDijkstra ModelExplorator
  ModelHeap ModelRounded ModelRoundedHeap ModelRoundedExplorator
  Spec SpecRouting SpecPaths SpecExplorator SpecRounded SpecRoundedHeap SpecRoundedExplorator SpecRoundedFound ProofDijkstra ProofRouting ProofExplorator
  ProofCompare64 ProofCells2 ProofRoundedExplorator ProofRoundedExploratorCosts.
Import ListNotations.
Open Scope list_scope.
Open Scope nat_scope.

(** *** Comparing *)
Lemma eq_vec_false ar a : forall b, length a = length b -> rapprox_eq_vec ar a b = false ->
  exists i x y, nth_error a i = Some x /\ nth_error b i = Some y /\ rapprox_eq ar x y = false.
Proof.
  induction a as [|u a IH]; intros [|w b] L H; cbn [rapprox_eq_vec length] in *; try discriminate.
  apply andb_false_iff in H. destruct H as [H|H]; [exists 0, u, w; auto|].
  destruct (IH b) as (i & x & y & A & B & C); [lia|auto|]. exists (S i), x, y. auto.
Qed.
Lemma eq_vec_true ar a : forall b i x y, rapprox_eq_vec ar a b = true -> nth_error a i = Some x -> nth_error b i = Some y ->
  rapprox_eq ar x y = true.
Proof.
  induction a as [|u a IH]; intros [|w b] [|i] x y H A B; cbn [rapprox_eq_vec nth_error] in *; try discriminate;
    apply andb_prop in H; destruct H as [H1 H2].
  - injection A as <-. injection B as <-. exact H1.
  - eauto.
Qed.
Lemma unequal64 a b : rapprox_eq ieee (Fin a) (Fin b) = false -> (sameness64 < Qabs (a - b))%Q.
Proof.
  intros H. apply Qnot_le_lt. intros L. destruct (rapprox_eq_64 ieee a b (or_intror eq_refl)) as [K _].
  rewrite K in H; [discriminate|exact L].
Qed.
Lemma equal64 a b : rapprox_eq ieee (Fin a) (Fin b) = true -> (Qabs (a - b) < accuracy64)%Q.
Proof.
  intros H. apply Qnot_le_lt. intros L. destruct (rapprox_eq_64 ieee a b (or_intror eq_refl)) as [_ K].
  rewrite K in H; [discriminate|exact L].
Qed.
Lemma apart_differs p p' : rcost_apart ieee p p' -> differs p p'.
Proof.
  intros H cs cs' A B L. destruct (eq_vec_false _ _ _ L (H _ _ A B)) as (i & x & y & Hx & Hy & E). exists i, x, y. split; auto. split; auto.
  intros a b -> ->. now apply unequal64.
Qed.
Lemma lt_saves x y : rapprox_lt ieee x y = true -> saves64 x y.
Proof.
  unfold rapprox_lt, rapprox_cmp. destruct (rapprox_eq ieee x y) eqn:E; [discriminate|]. intros H.
  destruct x as [a| | |], y as [b| | |]; cbn [fcmp saves64] in *; auto; try discriminate.
  apply unequal64 in E. destruct (Qcompare_spec a b) as [K|K|K]; try discriminate.
  rewrite Qabs_neg in E by lra. set (A := sameness64) in *. clearbody A. lra.
Qed.
Lemma saves_lt a b : (accuracy64 <= b - a)%Q -> rapprox_lt ieee (Fin a) (Fin b) = true.
Proof.
  intros L. destruct (rapprox_eq_64 ieee a b (or_intror eq_refl)) as [_ K]. unfold rapprox_lt, rapprox_cmp.
  assert (0 < accuracy64)%Q by (vm_compute; reflexivity).
  set (A := accuracy64) in *. clearbody A.
  rewrite K by (rewrite Qabs_neg by lra; lra). cbn [fcmp]. replace (a ?= b)%Q with Lt; auto. symmetry. apply (proj1 (Qlt_alt a b)). lra.
Qed.
Lemma affordable_le tol cs : (forall i x y, nth_error cs i = Some x -> nth_error tol i = Some y ->
    exists a, x = Fin a /\ (y = PInf \/ exists b, y = Fin b /\ (a <= b)%Q)) -> rapprox_le_vec ieee cs tol = true.
Proof.
  revert tol. induction cs as [|x cs IH]; intros [|y tol] H; cbn [rapprox_le_vec]; auto.
  destruct (H 0 x y eq_refl eq_refl) as (a & -> & Hy).
  assert (K : rapprox_cmp ieee (Fin a) y <> Some Gt).
  { unfold rapprox_cmp. destruct (rapprox_eq ieee (Fin a) y); [discriminate|]. destruct Hy as [->|(b & -> & L)]; cbn [fcmp]; [discriminate|].
    destruct (Qcompare_spec a b); try discriminate. exfalso. lra. }
  assert (IH' : rapprox_le_vec ieee cs tol = true) by (apply IH; intros i; apply (H (S i))).
  destruct (rapprox_cmp ieee (Fin a) y) as [[]|]; auto.
Qed.

(** *** Initial paths *)
Definition represented fuel g q (found : list path) (al : list f64) : Prop :=
  exists st st' r, rhistory_h st /\ roomy st g /\ rxbest ieee fuel g q st al = Ok (st', r) /\
    forall p, r = Some p -> exists p', In p' found /\ resembles p' p.

Lemma resembles_refl p : resembles p p.
Proof.
  intros cs cs' i a b A B Ha Hb. assert (Fin a = Fin b) by congruence. injection H as ->.
  setoid_replace (b - b)%Q with 0%Q by ring. vm_compute. reflexivity.
Qed.

Lemma initial_represented fuel g q : forall l st tol found x, rhistory_h st -> roomy st g ->
  foldM (rinit_step ieee fuel g q) l (st, tol, found) = Ok x ->
  (forall p, In p found -> In p (snd x)) /\ forall al, In al (map snd l) -> represented fuel g q (snd x) al.
Proof.
  induction l as [|ia l IH]; intros st tol found x Hh Hr E; cbn [foldM] in E.
  - injection E as <-. cbn [snd map]. split; [auto|intros ? []].
  - apply bind_ok in E. destruct E as ([[st1 tol1] found1] & E1 & E). unfold rinit_step in E1.
    apply bind_ok in E1. destruct E1 as ([st2 o] & Ex & E1). cbn [fst snd] in E1.
    destruct (rxbest_history _ _ _ _ _ _ _ _ Hh Hr Ex) as [Hh2 Hr2].
    assert (K : st1 = st2 /\ (forall p, In p found -> In p found1) /\ forall p, o = Some p -> exists p', In p' found1 /\ resembles p' p).
    { destruct o as [p|].
      - apply bind_ok in E1. destruct E1 as (cs & Ecs & E1). apply path_costs_ok in Ecs.
        apply bind_ok in E1. destruct E1 as (tol' & _ & E1). apply bind_ok in E1. destruct E1 as (cl & Ecl & E1). apply mapM_ok in Ecl.
        destruct (existsb (fun c => rapprox_eq_vec ieee c cs) cl) eqn:Eex; injection E1 as <- _ <-; (split; [reflexivity|split]).
        + auto.
        + intros p' H. injection H as <-. apply existsb_exists in Eex. destruct Eex as (c & Hc & Heq).
          apply In_nth_error in Hc. destruct Hc as (k & Hk).
          destruct (nth_error found k) as [p'|] eqn:Ep; [|apply nth_error_None in Ep; pose proof (Forall2_len _ _ _ Ecl); assert (k < length cl) by (apply nth_error_Some; congruence); lia].
          destruct (Forall2_nth _ _ _ _ _ Ecl Ep) as (c0 & Hc0 & Hc1). apply path_costs_ok in Hc1.
          exists p'. split; [eapply nth_error_In; eauto|]. intros u v i a b A B Ha Hb.
          apply equal64. eapply eq_vec_true; [exact Heq| |]; [|replace cs with v by congruence; exact Hb]. congruence.
        + intros p' H. apply in_or_app. auto.
        + intros p' H. injection H as <-. exists p. split; [apply in_or_app; right; now left|apply resembles_refl].
      - injection E1 as <- _ <-. split; auto. split; auto. discriminate. }
    destruct K as (-> & K1 & K2). destruct (IH _ _ _ _ Hh2 Hr2 E) as [I1 I2]. split; [auto|].
    intros al [<-|Hal]; [|auto]. exists st, st2, o. do 3 (split; [assumption|]). intros p Hp. destruct (K2 p Hp) as (p' & A & B). eauto.
Qed.

(** *** What has been tolerated stays so *)
Section Kept.
  Variable T : Type.
  Variable tri_new : nat -> T.
  Variable tri_add : T -> list f64 -> option (T * nat).
  Variable tri_cells : T -> list (nat * list nat).
  Variable solve : list (list f64) -> list f64 -> option (list f64).
  Variable ids : T -> list nat.
  Hypothesis ids_add : forall t c t' id, tri_add t c = Some (t', id) ->
    ~ In id (ids t) /\ forall k, In k (ids t') <-> k = id \/ In k (ids t).
  Variables (fuel : nat) (g : graph) (q : xquery).

  Definition has (p : path) (s : xstate T) : Prop :=
    exists id, In id (xs_tolerated T s) /\ In id (ids (xs_tri T s)) /\ lookup id (xs_found T s) = Some p.

  Lemma has_path p s p' s' : rupdate_path ieee T tri_add q s p' = Ok s' ->
    (has p s -> has p s') /\ (affordable (xq_tol q) p' -> has p' s').
  Proof.
    intros E. unfold rupdate_path in E. apply bind_ok in E. destruct E as (cs & Ecs & E).
    apply path_costs_ok in Ecs. apply bind_ok in E. destruct E as (cc & _ & E). apply bind_ok in E. destruct E as ([tri id] & Ea & E).
    unfold expect in Ea. destruct (tri_add (xs_tri T s) cc) as [[tri' id']|] eqn:Et; [|discriminate]. injection Ea as -> ->.
    destruct (ids_add _ _ _ _ Et) as [Hnew Hids]. injection E as <-. split.
    - intros (k & A & B & C). assert (Hne : k <> id) by (intros ->; now apply Hnew). exists k. cbn [xs_tolerated xs_tri xs_found].
      split; [destruct (rapprox_le_vec _ _ _); [apply in_or_app|]; auto|]. split; [apply Hids; auto|].
      cbn [lookup]. destruct (Nat.eqb_spec id k) as [->|_]; [congruence|]. rewrite lookup_remove. destruct (Nat.eqb_spec k id); [congruence|auto].
    - intros (cs' & A & B). assert (cs' = cs) by congruence. subst cs'. exists id. cbn [xs_tolerated xs_tri xs_found].
      rewrite (affordable_le _ _ B). split; [apply in_or_app; right; now left|]. split; [apply Hids; auto|]. cbn [lookup]. now rewrite Nat.eqb_refl.
  Qed.
  Lemma has_fold new : forall s s', foldM (rupdate_path ieee T tri_add q) new s = Ok s' ->
    (forall p, has p s -> has p s') /\ forall p, In p new -> affordable (xq_tol q) p -> has p s'.
  Proof.
    induction new as [|p0 new IH]; intros s s' E; cbn [foldM] in E.
    - injection E as <-. split; [auto|intros ? []].
    - apply bind_ok in E. destruct E as (s1 & E1 & E). destruct (IH _ _ E) as [A B]. split.
      + intros p Hp. apply A. now apply (has_path p _ _ _ E1).
      + intros p [<-|Hp] Ha; [|auto]. apply A. now apply (has_path p0 _ _ _ E1).
  Qed.
  Lemma has_update new s s' : rupdate ieee T tri_add q new s = Ok s' ->
    (forall p, has p s -> has p s') /\ forall p, In p new -> affordable (xq_tol q) p -> has p s'.
  Proof. intros E. unfold rupdate in E. destruct (has_fold _ _ _ E) as [A B]. split; auto. Qed.
  Lemma has_explore rounds : forall st s st' s', rexplore ieee fuel T tri_add tri_cells solve g q rounds st s = Ok (st', s') ->
    forall p, has p s -> has p s'.
  Proof.
    induction rounds as [|k IH]; intros st s st' s' E p Hp; cbn [rexplore] in E; destruct (xs_dirty T s);
      try discriminate; try (injection E as <- <-; auto).
    apply bind_ok in E. destruct E as ([[st1 vis] new] & Ef & E). apply bind_ok in E. destruct E as (s1 & Eu & E).
    eapply IH; [exact E|]. apply (proj1 (has_update _ _ _ Eu)). exact Hp.
  Qed.
End Kept.

(** *** Cells *)
Lemma rcell_added fuel g q solve found st vis new c st' vis' new' :
  rexplore_cell ieee fuel solve g q found (st, vis, new) c = Ok (st', vis', new') ->
  new' = new \/
  exists p cell rows b al v0 cs c0, new' = new ++ [p] /\ Forall2 (fun id v => lookup id found = Some v) (snd c) cell /\
    rcreate_linear_system ieee q cell = Ok (Some (rows, b)) /\ solve rows b = Some al /\
    rxbest ieee fuel g q st al = Ok (st', Some p) /\ nth_error cell 0 = Some v0 /\
    p_costs p = Some cs /\ p_costs v0 = Some c0 /\ saves64 (rdot ieee al cs) (rdot ieee al c0).
Proof.
  intros E. unfold rexplore_cell in E. destruct (existsb _ vis); [injection E as <- <- <-; auto|].
  apply bind_ok in E. destruct E as (cell & Ec & E). apply bind_ok in E. destruct E as (miss & _ & E).
  destruct miss; [injection E as <- <- <-; auto|].
  apply bind_ok in E. destruct E as ([[rows b]|] & El & E); [|injection E as <- <- <-; auto].
  destruct (solve rows b) as [al|] eqn:Es; [|injection E as <- <- <-; auto].
  apply bind_ok in E. destruct E as ([st1 o] & Ex & E). cbn [fst snd] in E.
  destruct o as [p|]; [|injection E as <- <- <-; auto].
  apply bind_ok in E. destruct E as (cs & Ecs & E). apply bind_ok in E. destruct E as (v0 & Ev & E).
  apply bind_ok in E. destruct E as (c0 & Ec0 & E).
  destruct (rapprox_lt ieee (rdot ieee al cs) (rdot ieee al c0)) eqn:Elt; cbn [andb] in E; [|injection E as <- <- <-; auto].
  destruct (negb _); injection E as <- <- <-; auto. right. exists p, cell, rows, b, al, v0, cs, c0.
  split; auto. split.
  { unfold cell_from in Ec. apply mapM_ok in Ec. clear - Ec. induction Ec as [|id v l m H F IH]; constructor; auto.
    unfold expect in H. destruct (lookup id found); [|discriminate]. now injection H as ->. }
  do 3 (split; [assumption|]). split; [now apply idx_ok in Ev|]. split; [now apply path_costs_ok|]. split; [now apply path_costs_ok|]. now apply lt_saves.
Qed.

Lemma rcell_noticed fuel g q solve found st vis new c x cell rows b al st1 p v0 cs c0 a w :
  ~ In (fst c) vis -> cell_from found (snd c) = Ok cell -> misses_tolerance (xq_tol q) cell = Ok false ->
  rcreate_linear_system ieee q cell = Ok (Some (rows, b)) -> solve rows b = Some al ->
  rxbest ieee fuel g q st al = Ok (st1, Some p) -> nth_error cell 0 = Some v0 -> p_costs p = Some cs -> p_costs v0 = Some c0 ->
  rdot ieee al cs = Fin a -> rdot ieee al c0 = Fin w -> (accuracy64 <= w - a)%Q ->
  rexplore_cell ieee fuel solve g q found (st, vis, new) c = Ok x ->
  exists p', In p' (snd x) /\ p_edges p' = p_edges p.
Proof.
  intros Hv Ec Em El Es Ex E0 Ep Ep0 Ea Ew L E. unfold rexplore_cell in E.
  destruct (existsb (fun k => k =? fst c) vis) eqn:Ev.
  { apply existsb_exists in Ev. destruct Ev as (k & Hk & Hk'). apply Nat.eqb_eq in Hk'. subst k. contradiction. }
  rewrite Ec in E. cbn [bind] in E. rewrite Em in E. cbn [bind] in E. rewrite El in E. cbn [bind] in E. rewrite Es, Ex in E. cbn [bind fst snd] in E.
  assert (K : path_costs p = Ok cs) by (unfold path_costs, expect; now rewrite Ep). rewrite K in E. cbn [bind] in E.
  assert (K0 : idx cell 0 = Ok v0) by (apply idx_ok; exact E0). rewrite K0 in E. cbn [bind] in E.
  assert (K1 : path_costs v0 = Ok c0) by (unfold path_costs, expect; now rewrite Ep0). rewrite K1 in E. cbn [bind] in E.
  rewrite Ea, Ew, (saves_lt _ _ L) in E. cbn [andb] in E.
  destruct (existsb (fun p' => path_eqb p' p) new) eqn:En; cbn [negb] in E; injection E as <-; cbn [snd].
  - apply existsb_exists in En. destruct En as (p' & A & B). exists p'. split; auto. unfold path_eqb in B. apply andb_true_iff in B. now apply fold_edges_eqb, B.
  - exists p. split; auto. apply in_or_app. right. now left.
Qed.

(** *** Linear systems *)
Lemma rvsub_map ar a : forall b, rvsub ar a b = map ar (vsub a b).
Proof. induction a as [|x a IH]; intros [|y b]; cbn [rvsub vsub map]; auto. now rewrite IH. Qed.
Lemma map_rvsub ar c0 cs : map (fun c => rvsub ar c0 c) cs = map (map ar) (map (fun c => vsub c0 c) cs).
Proof. rewrite map_map. apply map_ext. intros c. apply rvsub_map. Qed.
Lemma firstn_app_exact {A} (a b : list A) n : length a = n -> firstn n (a ++ b) = a /\ skipn n (a ++ b) = b.
Proof.
  intros <-. split.
  - rewrite firstn_app, Nat.sub_diag, firstn_all. cbn [firstn]. apply app_nil_r.
  - rewrite skipn_app, Nat.sub_diag, skipn_all. reflexivity.
Qed.

Lemma rsystem ar q cell rows b : rcreate_linear_system ar q cell = Ok (Some (rows, b)) <->
  exists rows0, create_linear_system q cell = Ok (Some (rows0, b)) /\
    rows = map (map ar) (firstn (length cell - 1) rows0) ++ skipn (length cell - 1) rows0.
Proof.
  destruct cell as [|v0 vs]; [cbn; split; [discriminate|intros (? & ? & _); discriminate]|].
  unfold rcreate_linear_system, create_linear_system. cbn [length]. rewrite Nat.sub_succ, Nat.sub_0_r.
  destruct (path_costs v0) as [c0| | |]; cbn [bind]; try (split; [discriminate|intros (? & ? & _); discriminate]).
  destruct (mapM path_costs vs) as [cs| | |] eqn:Ecs; cbn [bind]; try (split; [discriminate|intros (? & ? & _); discriminate]).
  apply mapM_ok in Ecs. apply Forall2_len in Ecs. cbv zeta.
  match goal with |- context [mapM ?f ?l] => destruct (mapM f l) as [rows1| | |] end; cbn [bind]; try (split; [discriminate|intros (? & ? & _); discriminate]).
  rewrite map_rvsub. set (r0 := map (fun c => vsub c0 c) cs). assert (L0 : length r0 = length vs) by (unfold r0; rewrite map_length; lia).
  rewrite !app_length, map_length. destruct (xq_dim q <? length r0 + length rows1); [split; [discriminate|intros (? & ? & _); discriminate]|].
  destruct (xq_dim q - (length r0 + length rows1)) as [|[|n]].
  - destruct (firstn_app_exact r0 rows1 (length vs) L0) as [A B]. split.
    + intros H. injection H as <- <-. exists (r0 ++ rows1). rewrite A, B. auto.
    + intros (rows0 & H & ->). injection H as <- <-. rewrite A, B. auto.
  - assert (K : (r0 ++ rows1) ++ [repeat (Fin 1) (xq_dim q)] = r0 ++ (rows1 ++ [repeat (Fin 1) (xq_dim q)])) by now rewrite app_assoc.
    destruct (firstn_app_exact r0 (rows1 ++ [repeat (Fin 1) (xq_dim q)]) (length vs) L0) as [A B]. split.
    + intros H. injection H as <- <-. eexists. split; [reflexivity|]. rewrite K, A, B. now rewrite app_assoc.
    + intros (rows0 & H & ->). injection H as <- <-. rewrite K, A, B. now rewrite app_assoc.
  - split; [discriminate|intros (? & ? & _); discriminate].
Qed.
