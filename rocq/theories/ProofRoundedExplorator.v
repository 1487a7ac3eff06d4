(** The explorator with arithmetic that rounds: its states *)
From Coq Require Import String List Bool Arith ZArith QArith Lia Lqa NArith.
From Verif Require Import Base F64 Lib ModelApprox ModelUnits ModelConfig ModelGraph ModelBuild ModelDijkstra ModelExplorator
  ModelHeap ModelRounded ModelRoundedHeap ModelRoundedExplorator
  Spec SpecRouting SpecPaths SpecExplorator SpecRounded SpecRoundedHeap ProofDijkstra ProofRouting ProofExplorator ProofRounded ProofRoundedRun
  ProofHeap ProofHeapSearch ProofRoundedHeap ProofRoundedAny.
Import ListNotations.
Open Scope list_scope.
Open Scope nat_scope.

Lemma rcapacity_after ar fuel st g rc s t st' r : rhistory_h st -> roomy st g ->
  rcompute_best_path_h ar fuel st g rc s t = Ok (st', r) -> rhistory_h st' /\ roomy st' g.
Proof.
  intros Hh Hr E. split; [eapply rhistory_h_query; eauto|]. intros Hn. specialize (Hr Hn).
  destruct (rp_history st Hh) as (st0 & Hh0 & S0). destruct (rp_query ar g rc fuel st0 st s t S0) as (pick & K). rewrite E in K.
  destruct (rcompute_best_path ar pick fuel st0 g rc s t) as [[st1 r1]| | |] eqn:E1; cbn [alike fst snd] in K; try contradiction.
  destruct K as [S1 _]. unfold capacity in *. rewrite <- (sm_costs _ _ S1). rewrite <- (sm_costs _ _ S0) in Hr. clear E S1 S0.
  rewrite rcompute_split in E1. destruct (existsb _ _); [now injection E1 as <- _|].
  apply bind_ok in E1. destruct E1 as (ch & _ & E). apply bind_ok in E. destruct E as (st2 & E0 & E).
  pose proof (rhistory_clean _ Hh0) as Hc. rewrite (init_query_spec _ _ _ _ _ Hc E0) in E.
  pose proof (rquery_clean ar _ _ _ _ _ _ _ _ _ _ (blank_clean _ _ _) E) as Hc'.
  pose proof (c_cost _ _ Hc' FWD) as El. cbn [get] in El. unfold capacity. rewrite El. unfold new_size. now rewrite Hn.
Qed.
Lemma rxbest_history ar fuel g q st al st' r : rhistory_h st -> roomy st g ->
  rxbest ar fuel g q st al = Ok (st', r) -> rhistory_h st' /\ roomy st' g.
Proof.
  intros Hh Hr Ex. unfold rxbest in Ex. apply bind_ok in Ex. destruct Ex as ([st1 o] & Ec & Ex). cbn [fst snd] in Ex.
  destruct (rcapacity_after _ _ _ _ _ _ _ _ _ Hh Hr Ec).
  destruct o as [p0|]; [apply bind_ok in Ex; destruct Ex as (p1 & _ & Ex)|]; now injection Ex as <- _.
Qed.

(** what is remembered as tolerance of metric [i] *)
Definition rrecorded (ar : f64 -> f64) (rc : routing_cfg) (i : nat) (r : option path) (x : f64) : Prop :=
  match r with
  | None => x = PInf
  | Some p => exists sc, nth_error (rc_scales rc) i = Some sc /\
      if feqb sc PInf then x = PInf
      else exists cs co, p_costs p = Some cs /\ nth_error cs i = Some co /\ x = rmul ar co sc
  end.

(** an answered query of the exploration *)
Definition rasked ar fuel g q (al : list f64) (r : option path) : Prop :=
  exists st st', rhistory_h st /\ roomy st g /\ rxbest ar fuel g q st al = Ok (st', r).

Definition rcost_apart (ar : f64 -> f64) (p p' : path) : Prop :=
  forall c c', p_costs p = Some c -> p_costs p' = Some c' -> rapprox_eq_vec ar c c' = false.

Record rinit_inv ar fuel g q (done : list (option nat * list f64)) (x : dijkstra * list f64 * list path) : Prop := {
  rii_hist : rhistory_h (fst (fst x)) /\ roomy (fst (fst x)) g;
  rii_len : length (snd (fst x)) = xq_dim q;
  rii_found : forall p, In p (snd x) -> exists al, In al (map snd done) /\ rasked ar fuel g q al (Some p);
  rii_apart : ForallOrdPairs (rcost_apart ar) (snd x);
  rii_tol : forall i, i < xq_dim q -> exists y, nth_error (snd (fst x)) i = Some y /\
      (y = PInf /\ (forall al, ~ In (Some i, al) done) \/
       exists al r, In (Some i, al) done /\ rasked ar fuel g q al r /\ rrecorded ar (xq_rc q) i r y);
  rii_none : snd x = [] -> forall al, In al (map snd done) -> rasked ar fuel g q al None;
}.

Lemma rinit_inv_step ar fuel g q done x ia x' : rinit_inv ar fuel g q done x -> rinit_step ar fuel g q x ia = Ok x' ->
  rinit_inv ar fuel g q (done ++ [ia]) x'.
Proof.
  destruct x as [[st tol] found]. intros [[Hh Hr] Hlen Hf Ha Htol Hnone] E. cbn [fst snd] in *.
  unfold rinit_step in E. apply bind_ok in E. destruct E as ([st1 o] & Ex & E). cbn [fst snd] in E.
  pose proof (rxbest_history _ _ _ _ _ _ _ _ Hh Hr Ex) as Hh1.
  assert (Hask : rasked ar fuel g q (snd ia) o) by (exists st, st1; auto).
  assert (Hin : forall a, In a done -> In a (done ++ [ia])) by (intros; apply in_or_app; auto).
  assert (Hin' : forall a, In a (map snd done) -> In a (map snd (done ++ [ia]))) by (intros; rewrite map_app; apply in_or_app; auto).
  destruct o as [p|].
  - apply bind_ok in E. destruct E as (cs & Ecs & E). apply bind_ok in E. destruct E as (tol' & Et & E).
    apply bind_ok in E. destruct E as (cl & Ecl & E). apply path_costs_ok in Ecs.
    assert (Htol' : length tol' = length tol /\ forall i, i < xq_dim q ->
              nth_error tol' i = nth_error tol i /\ fst ia <> Some i \/
              fst ia = Some i /\ exists y, nth_error tol' i = Some y /\ rrecorded ar (xq_rc q) i (Some p) y).
    { unfold rset_tolerance in Et. destruct (fst ia) as [k|].
      - apply bind_ok in Et. destruct Et as (sc & Esc & Et). apply idx_ok in Esc.
        destruct (feqb sc PInf) eqn:Ef.
        + apply set_ok in Et. destruct Et as [Hk ->]. rewrite upd_length. split; auto. intros i Hi.
          destruct (Nat.eq_dec k i) as [->|Hne]; [right|left; rewrite nth_error_upd_neq by auto; split; congruence].
          split; auto. exists PInf. rewrite nth_error_upd_eq by auto. split; auto. exists sc. rewrite Ef. auto.
        + apply bind_ok in Et. destruct Et as (co & Eco & Et). apply idx_ok in Eco. apply set_ok in Et. destruct Et as [Hk ->].
          rewrite upd_length. split; auto. intros i Hi.
          destruct (Nat.eq_dec k i) as [->|Hne]; [right|left; rewrite nth_error_upd_neq by auto; split; congruence].
          split; auto. exists (rmul ar co sc). rewrite nth_error_upd_eq by auto. split; auto. exists sc. rewrite Ef.
          split; auto. exists cs, co. auto.
      - injection Et as <-. split; auto. intros i Hi. left. split; congruence. }
    destruct Htol' as [Hlen' Htol'].
    assert (Htols : forall i, i < xq_dim q -> exists y, nth_error tol' i = Some y /\
      (y = PInf /\ (forall al, ~ In (Some i, al) (done ++ [ia])) \/
       exists al r, In (Some i, al) (done ++ [ia]) /\ rasked ar fuel g q al r /\ rrecorded ar (xq_rc q) i r y)).
    { intros i Hi. destruct (Htol' i Hi) as [[En Hne]|[Eia (y & Ey & Hrec)]].
      - destruct (Htol i Hi) as (y & Ey & [[-> Hno]|(al & r & A & B & C)]); rewrite En.
        + exists PInf. split; auto. left. split; auto. intros al Hal. apply in_app_or in Hal.
          destruct Hal as [Hal|[Hal|[]]]; [eapply Hno; eauto|]. subst ia. now apply Hne.
        + exists y. split; auto. right. exists al, r. auto.
      - exists y. split; auto. right. exists (snd ia), (Some p). split; [|auto]. rewrite <- Eia. destruct ia; cbn [fst snd].
        apply in_or_app. right. now left. }
    destruct (existsb (fun c => rapprox_eq_vec ar c cs) cl) eqn:Eex; injection E as <-; constructor; cbn [fst snd]; auto; try lia.
    + intros p' Hp'. destruct (Hf p' Hp') as (al & A & B). eauto.
    + intros ->. cbn [mapM] in Ecl. injection Ecl as <-. discriminate.
    + intros p' Hp'. apply in_app_or in Hp'. destruct Hp' as [Hp'|[<-|[]]].
      * destruct (Hf p' Hp') as (al & A & B). eauto.
      * exists (snd ia). split; auto. rewrite map_app. apply in_or_app. right. now left.
    + apply FOP_snoc; auto. intros y Hy c c' Ec Ec'. assert (c' = cs) by congruence. subst c'.
      destruct (rapprox_eq_vec ar c cs) eqn:Eq; auto. exfalso. apply mapM_ok in Ecl.
      apply In_nth_error in Hy. destruct Hy as (k & Hk). destruct (Forall2_nth _ _ _ _ _ Ecl Hk) as (c0 & Hc0 & Hc1).
      apply path_costs_ok in Hc1. assert (c0 = c) by congruence. subst c0.
      assert (existsb (fun c => rapprox_eq_vec ar c cs) cl = true); [|congruence]. apply existsb_exists. exists c. split; auto.
      eapply nth_error_In; eauto.
    + intros Hnil. destruct found; discriminate.
  - injection E as <-. constructor; cbn [fst snd]; auto.
    + intros p' Hp'. destruct (Hf p' Hp') as (al & A & B). eauto.
    + intros i Hi. destruct (Htol i Hi) as (y & Ey & [[-> Hno]|(al & r & A & B & C)]).
      * exists PInf. split; auto. destruct ia as [[k|] al0]; cbn [snd] in *.
        { destruct (Nat.eq_dec k i) as [->|Hne].
          - right. exists al0, None. split; [apply in_or_app; right; now left|]. split; auto. reflexivity.
          - left. split; auto. intros al Hal. apply in_app_or in Hal. destruct Hal as [Hal|[Hal|[]]]; [eapply Hno; eauto|congruence]. }
        { left. split; auto. intros al Hal. apply in_app_or in Hal. destruct Hal as [Hal|[Hal|[]]]; [eapply Hno; eauto|congruence]. }
      * exists y. split; auto. right. exists al, r. auto.
    + intros Hnil al Hal. rewrite map_app in Hal. apply in_app_or in Hal. destruct Hal as [Hal|[<-|[]]]; auto.
Qed.

Lemma rinit_inv_fold ar fuel g q l : forall done x x', rinit_inv ar fuel g q done x ->
  foldM (rinit_step ar fuel g q) l x = Ok x' -> rinit_inv ar fuel g q (done ++ l) x'.
Proof.
  induction l as [|ia l IH]; intros done x x' H E; cbn [foldM] in E.
  - injection E as <-. now rewrite app_nil_r.
  - apply bind_ok in E. destruct E as (x1 & E1 & E). change (ia :: l) with ([ia] ++ l). rewrite app_assoc.
    eapply IH; [|exact E]. eapply rinit_inv_step; eauto.
Qed.

Lemma rinit_inv_start ar fuel g q st : rhistory_h st -> roomy st g -> xq_tol q = repeat PInf (xq_dim q) ->
  rinit_inv ar fuel g q [] (st, xq_tol q, []).
Proof.
  intros Hh Hr Et. constructor; cbn [fst snd]; auto.
  - rewrite Et. apply repeat_length.
  - intros p [].
  - constructor.
  - intros i Hi. exists PInf. rewrite Et, nth_repeat by auto. split; auto.
  - intros _ al [].
Qed.

Lemma rinitial_inv ar fuel g q st x ias : rhistory_h st -> roomy st g -> xq_tol q = repeat PInf (xq_dim q) ->
  init_alphas (xq_dim q) (xq_imc q) = Ok ias -> rexplore_initial_paths ar fuel g q st = Ok x -> rinit_inv ar fuel g q ias x.
Proof.
  intros Hh Hr Et Ei E. unfold rexplore_initial_paths in E. rewrite Ei in E. cbn [bind] in E.
  exact (rinit_inv_fold ar fuel g q ias [] _ _ (rinit_inv_start ar fuel g q st Hh Hr Et) E).
Qed.

Section State.
  Variable T : Type.
  Variable tri_new : nat -> T.
  Variable tri_add : T -> list f64 -> option (T * nat).
  Variable tri_cells : T -> list (nat * list nat).
  Variable solve : list (list f64) -> list f64 -> option (list f64).
  Variable ids : T -> list nat.
  Hypothesis ids_new : forall d, ids (tri_new d) = [].
  Hypothesis ids_add : forall t c t' id, tri_add t c = Some (t', id) ->
    ~ In id (ids t) /\ forall k, In k (ids t') <-> k = id \/ In k (ids t).
  Variable ar : f64 -> f64.
  Variable fuel : nat.
  Variable g : graph.
  Variable q : xquery.
  (** property of all paths *)
  Variable P : path -> Prop.

  Definition rtolerated (p : path) : Prop := exists cs, p_costs p = Some cs /\ rapprox_le_vec ar cs (xq_tol q) = true.

  Record rxinv (s : xstate T) : Prop := {
    rxi_found : forall id p, In (id, p) (xs_found T s) -> P p;
    rxi_ids : forall id, In id (xs_tolerated T s) -> In id (ids (xs_tri T s));
    rxi_nodup : NoDup (xs_tolerated T s);
    rxi_tol : forall id, In id (xs_tolerated T s) -> exists p, lookup id (xs_found T s) = Some p /\ rtolerated p;
  }.

  Lemma rupdate_path_inv s p s' : rxinv s -> P p -> rupdate_path ar T tri_add q s p = Ok s' -> rxinv s'.
  Proof.
    intros [Hf Hi Hn Ht] Hp E. unfold rupdate_path in E. apply bind_ok in E. destruct E as (cs & Ecs & E).
    apply path_costs_ok in Ecs. apply bind_ok in E. destruct E as (cc & _ & E). apply bind_ok in E. destruct E as ([tri id] & Ea & E).
    unfold expect in Ea. destruct (tri_add (xs_tri T s) cc) as [[tri' id']|] eqn:Et; [|discriminate]. injection Ea as -> ->.
    destruct (ids_add _ _ _ _ Et) as [Hnew Hids]. injection E as <-.
    assert (Hsame : forall k, In k (xs_tolerated T s) -> k <> id) by (intros k Hk ->; apply Hnew; auto).
    constructor; cbn [xs_found xs_tri xs_tolerated].
    - intros k p' [H|H]; [injection H as <- <-; auto|]. apply remove_in in H. eauto.
    - intros k Hk. apply Hids. destruct (rapprox_le_vec ar _ _); [apply in_app_or in Hk; destruct Hk as [Hk|[<-|[]]]; auto|auto].
    - destruct (rapprox_le_vec ar _ _); auto. apply NoDup_rev in Hn. rewrite <- (rev_involutive (_ ++ [id])). apply NoDup_rev.
      rewrite rev_app_distr. simpl. constructor; auto. rewrite <- in_rev. intros H. now apply (Hsame id).
    - intros k Hk. assert (Hk' : In k (xs_tolerated T s) \/ k = id /\ rapprox_le_vec ar cs (xq_tol q) = true).
      { destruct (rapprox_le_vec ar _ _); auto. apply in_app_or in Hk. destruct Hk as [Hk|[<-|[]]]; auto. }
      cbn [lookup]. destruct Hk' as [Hk'|[-> Hle]].
      + destruct (Nat.eqb_spec id k) as [<-|_]; [now apply Hsame in Hk'|]. rewrite lookup_remove.
        destruct (Nat.eqb_spec k id) as [->|_]; [now apply Hsame in Hk'|]. auto.
      + rewrite Nat.eqb_refl. exists p. split; auto. exists cs. auto.
  Qed.

  Lemma rupdate_inv new s s' : rxinv s -> (forall p, In p new -> P p) -> rupdate ar T tri_add q new s = Ok s' -> rxinv s'.
  Proof.
    intros Hi Hp E. unfold rupdate in E. eapply foldM_inv; [| |exact E].
    - destruct Hi. constructor; auto.
    - intros s0 p t Hin H0 Ht. eapply rupdate_path_inv; eauto.
  Qed.

  Hypothesis Pasked : forall al p, rasked ar fuel g q al (Some p) -> P p.

  Lemma rexplore_cell_inv found x c x' :
    rhistory_h (fst (fst x)) /\ roomy (fst (fst x)) g -> (forall p, In p (snd x) -> P p) ->
    rexplore_cell ar fuel solve g q found x c = Ok x' ->
    (rhistory_h (fst (fst x')) /\ roomy (fst (fst x')) g) /\ (forall p, In p (snd x') -> P p).
  Proof.
    destruct x as [[st vis] new]. cbn [fst snd]. intros Hh Hp E. unfold rexplore_cell in E.
    destruct (existsb _ vis); [injection E as <-; auto|].
    apply bind_ok in E. destruct E as (cell & Ec & E). apply bind_ok in E. destruct E as (miss & _ & E).
    destruct miss; [injection E as <-; auto|].
    apply bind_ok in E. destruct E as ([[rows b]|] & _ & E); [|injection E as <-; auto].
    destruct (solve rows b) as [al|]; [|injection E as <-; auto].
    apply bind_ok in E. destruct E as ([st1 o] & Ex & E). cbn [fst snd] in E.
    pose proof (rxbest_history _ _ _ _ _ _ _ _ (proj1 Hh) (proj2 Hh) Ex) as Hh1.
    destruct o as [p|]; [|injection E as <-; auto].
    assert (HP : P p) by (apply (Pasked al); exists st, st1; tauto).
    apply bind_ok in E. destruct E as (cs & _ & E). apply bind_ok in E. destruct E as (v0 & _ & E).
    apply bind_ok in E. destruct E as (c0 & _ & E).
    destruct (_ && _); injection E as <-; cbn [fst snd]; split; auto.
    intros p' Hp'. apply in_app_or in Hp'. destruct Hp' as [Hp'|[<-|[]]]; auto.
  Qed.

  Lemma rexplore_inv rounds : forall st s st' s', rhistory_h st -> roomy st g -> rxinv s ->
    rexplore ar fuel T tri_add tri_cells solve g q rounds st s = Ok (st', s') -> (rhistory_h st' /\ roomy st' g) /\ rxinv s'.
  Proof.
    induction rounds as [|k IH]; intros st s st' s' Hh Hr Hi E; cbn [rexplore] in E; destruct (xs_dirty T s);
      try discriminate; try (injection E as <- <-; auto).
    apply bind_ok in E. destruct E as ([[st1 vis] new] & Ef & E). apply bind_ok in E. destruct E as (s1 & Eu & E).
    assert (H1 : (rhistory_h st1 /\ roomy st1 g) /\ forall p, In p new -> P p).
    { apply (foldM_inv _ (fun x : dijkstra * list nat * list path => (rhistory_h (fst (fst x)) /\ roomy (fst (fst x)) g) /\ forall p, In p (snd x) -> P p) _ _ _) in Ef; auto.
      - cbn [fst snd]. split; auto. intros p [].
      - intros x c x' _ [A B] Ex. eapply rexplore_cell_inv; eauto. }
    destruct H1 as [[Hh1 Hr1] Hnew]. eapply IH; [| | |exact E]; auto.
    eapply rupdate_inv; [|exact Hnew|exact Eu]. destruct Hi. constructor; auto.
  Qed.

End State.
