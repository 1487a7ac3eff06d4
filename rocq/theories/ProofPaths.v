(** Lemmas about path costs and flattening *)
From Coq Require Import String List Bool Arith ZArith QArith Lia Lqa.
From Verif Require Import Base F64 ModelUnits ModelConfig ModelGraph ModelBuild ModelDijkstra Lib ProofProps ProofDijkstra ProofRouting Spec SpecRouting SpecPaths.
Import ListNotations.
Open Scope nat_scope.

(** *** sums of vectors *)
Lemma vadd_nth a : forall b i x y, nth_error a i = Some x -> nth_error b i = Some y -> nth_error (vadd a b) i = Some (fadd x y).
Proof.
  induction a as [|u a IH]; intros b i x y Hx Hy; [destruct i; discriminate|].
  destruct b as [|v b]; [destruct i; discriminate|]. destruct i as [|i]; simpl in *; [congruence|now apply IH].
Qed.
Lemma vadd_length a b : length a = length b -> length (vadd a b) = length a.
Proof. revert b. induction a as [|u a IH]; intros [|v b] H; simpl in *; try reflexivity; try discriminate. f_equal. apply IH. lia. Qed.
Lemma vadd_assign_eq a : forall b, length a = length b -> vadd_assign a b = vadd a b.
Proof. induction a as [|u a IH]; intros [|v b] H; simpl in *; try reflexivity; try discriminate. f_equal. apply IH. lia. Qed.

(** costs [cs] are the sums of the metrics of [es], starting with [cs0] *)
Definition adds (g : graph) (cs0 : list f64) (es : list nat) (cs : list f64) : Prop :=
  length cs = length cs0 /\
  forall i x, nth_error cs0 i = Some x ->
    exists ms, Forall2 (fun e m => metric_of g e i = Some m) es ms /\ nth_error cs i = Some (fold_left fadd ms x).

Lemma adds_nil g cs : adds g cs [] cs.
Proof. split; auto. intros i x Hx. exists []. split; [constructor|auto]. Qed.
Lemma adds_snoc g cs0 es cs e ms : adds g cs0 es cs -> edge_metrics g e = Ok ms -> length ms = length cs0 ->
  adds g cs0 (es ++ [e]) (vadd cs ms).
Proof.
  intros [Hl H] He Hm. split; [rewrite vadd_length; lia|]. intros i x Hx. destruct (H i x Hx) as (xs & F & E).
  assert (Hi : i < length ms) by (rewrite Hm; apply nth_error_Some; congruence).
  destruct (nth_error ms i) as [m|] eqn:Em; [|apply nth_error_None in Em; lia].
  exists (xs ++ [m]). split.
  - apply Forall2_app; auto. constructor; [|constructor]. unfold metric_of. now rewrite He.
  - rewrite fold_left_app. simpl. now apply vadd_nth.
Qed.

Lemma sums_fold g i es q : sums g i es q -> forall ms, Forall2 (fun e m => metric_of g e i = Some m) es ms ->
  forall a, exists b, fold_left fadd ms (Fin a) = Fin b /\ (b == a + q)%Q.
Proof.
  induction 1 as [|e es x y He Hs IH]; intros ms F a; inversion F as [|e' m es' ms' Hm F']; subst; simpl.
  - exists a. split; [auto|ring].
  - assert (m = Fin x) as -> by congruence. simpl. destruct (IH ms' F' (a + x)%Q) as (b & -> & Hb).
    exists b. split; [auto|]. rewrite Hb. ring.
Qed.

Lemma sums_app g i a b p q : sums g i a p -> sums g i b q -> exists r, sums g i (a ++ b) r /\ (r == p + q)%Q.
Proof.
  induction 1 as [|e es x y He Hs IH]; intros Hb; simpl.
  - exists q. split; [auto|ring].
  - destruct (IH Hb) as (r & Hr & Er). exists (x + r)%Q. split; [now constructor|]. rewrite Er. ring.
Qed.

Lemma calc_loop g : (forall e ms, edge_metrics g e = Ok ms -> length ms = metric_dim g) ->
  forall es done cs0 cs, length cs0 = metric_dim g -> adds g cs0 done cs ->
  (forall e, In e es -> exists ms, edge_metrics g e = Ok ms) ->
  exists cs', foldM (fun acc e => do m <- edge_metrics g e; Ok (vadd acc m)) es cs = Ok cs' /\ adds g cs0 (done ++ es) cs'.
Proof.
  intros Hal es. induction es as [|e es IH]; intros done cs0 cs Hd Ha He; simpl.
  - exists cs. rewrite app_nil_r. auto.
  - destruct (He e (or_introl eq_refl)) as [ms Em]. rewrite Em. cbn [bind].
    destruct (IH (done ++ [e]) cs0 (vadd cs ms)) as (cs' & E & A); auto.
    + apply adds_snoc; auto. rewrite Hd. eauto.
    + intros e' He'. apply He. now right.
    + exists cs'. split; auto. now rewrite <- app_assoc in A.
Qed.

(** *** expansion of shortcuts *)
Lemma stands_det g e l : stands_for g e l -> forall l', stands_for g e l' -> l = l'.
Proof.
  induction 1 as [e E|e a b la lb E Ha IHa Hb IHb]; intros l' H; inversion H; subst; try congruence.
  assert (a0 = a) by congruence. assert (b0 = b) by congruence. subst. now rewrite (IHa la0), (IHb lb0).
Qed.
Lemma stands_plain g e l : stands_for g e l -> forall x, In x l -> sc_edges g x = Ok None.
Proof.
  induction 1 as [e E|e a b la lb E Ha IHa Hb IHb]; intros x Hx; [destruct Hx as [<-|[]]; auto|].
  apply in_app_or in Hx. destruct Hx; auto.
Qed.
Lemma stands_nonempty g e l : stands_for g e l -> 1 <= length l.
Proof. induction 1; simpl; auto. rewrite app_length. lia. Qed.
Lemma stands_endless g e l : stands_for g e l -> endless_first g e -> False.
Proof.
  induction 1 as [e E|e a b la lb E Ha IHa Hb IHb]; intros H; inversion H as [e' a' b' E' H']; subst; [congruence|].
  apply IHa. congruence.
Qed.

Lemma Forall2_concat_length {A} (R : A -> list nat -> Prop) l ls : Forall2 R l ls ->
  (forall x y, R x y -> 1 <= length y) -> length l <= length (concat ls).
Proof. induction 1; intros H1; simpl; auto. rewrite app_length. specialize (IHForall2 H1). pose proof (H1 _ _ H). lia. Qed.

(** what the loop returns *)
Lemma flatten_sound g : (forall e ms, edge_metrics g e = Ok ms -> length ms = metric_dim g) ->
  forall fuel top stack acc cs cs0 r,
  length cs0 = metric_dim g -> adds g cs0 acc cs ->
  flatten_loop g fuel top stack acc cs = Ok r ->
  exists ls, Forall2 (stands_for g) (top :: stack) ls /\ fst r = acc ++ concat ls /\ adds g cs0 (fst r) (snd r).
Proof.
  intros Hal. induction fuel as [|fuel IH]; intros top stack acc cs cs0 r Hd Ha E; [discriminate|].
  cbn [flatten_loop] in E. apply bind_ok in E. destruct E as (sc & Esc & E). destruct sc as [[a b]|].
  - destruct (_ <? _); [discriminate|]. destruct (IH _ _ _ _ _ _ Hd Ha E) as (ls & F & Er & Ac).
    inversion F as [|x1 la y1 ls1 Fa F1]; subst. inversion F1 as [|x2 lb y2 ls2 Fb F2]; subst.
    exists ((la ++ lb) :: ls2). split; [|split]; auto.
    + constructor; auto. eapply stands_shortcut; eauto.
    + rewrite Er. simpl. now rewrite <- !app_assoc.
  - apply bind_ok in E. destruct E as (m & Em & E).
    assert (Hm : length m = length cs0) by (rewrite Hd; eauto).
    assert (Hcs : vadd_assign cs m = vadd cs m) by (apply vadd_assign_eq; destruct Ha; lia).
    rewrite Hcs in E. pose proof (adds_snoc _ _ _ _ _ _ Ha Em Hm) as Ha'.
    destruct stack as [|e stack].
    + injection E as <-. exists [[top]]. split; [|split]; auto. repeat constructor. auto.
    + destruct (IH _ _ _ _ _ _ Hd Ha' E) as (ls & F & Er & Ac). exists ([top] :: ls).
      split; [constructor; [now constructor|auto]|]. split; auto. rewrite Er. simpl. now rewrite <- app_assoc.
Qed.

(** number of iterations *)
Lemma flatten_total g top l : stands_for g top l ->
  (forall e, In e l -> exists ms, edge_metrics g e = Ok ms) ->
  forall stack acc cs, length stack + length l <= edge_count g FWD + 1 ->
  exists cs', forall k,
  flatten_loop g (2 * length l - 1 + k) top stack acc cs =
    match stack with
    | [] => Ok (acc ++ l, cs')
    | e :: st => flatten_loop g k e st (acc ++ l) cs'
    end.
Proof.
  induction 1 as [e E|e a b la lb E Ha IHa Hb IHb]; intros Hm stack acc cs Hl.
  - destruct (Hm e (or_introl eq_refl)) as [ms Em]. exists (vadd_assign cs ms). intros k.
    cbn [Nat.add Nat.sub Nat.mul length flatten_loop]. rewrite E. cbn [bind]. rewrite Em. cbn [bind]. reflexivity.
  - pose proof (stands_nonempty _ _ _ Ha) as Na. pose proof (stands_nonempty _ _ _ Hb) as Nb. rewrite app_length in Hl.
    destruct (IHa (fun e He => Hm e (in_or_app _ _ _ (or_introl He))) (b :: stack) acc cs) as (cs1 & H1); [simpl; lia|].
    destruct (IHb (fun e He => Hm e (in_or_app _ _ _ (or_intror He))) stack (acc ++ la) cs1) as (cs2 & H2); [lia|].
    exists cs2. intros k. rewrite app_length.
    replace (2 * (length la + length lb) - 1 + k) with (S (2 * length la - 1 + (2 * length lb - 1 + k))) by lia.
    cbn [flatten_loop]. rewrite E. cbn [bind].
    destruct (Nat.ltb_spec (edge_count g FWD) (length (b :: stack))) as [Hx|_]; [simpl in Hx; lia|].
    rewrite H1, H2, app_assoc. reflexivity.
Qed.

Lemma flatten_all g ls : forall top stack acc cs k, Forall2 (stands_for g) (top :: stack) ls ->
  (forall e, In e (concat ls) -> exists ms, edge_metrics g e = Ok ms) ->
  length (concat ls) <= edge_count g FWD + 1 -> 2 * length (concat ls) <= k ->
  exists cs', flatten_loop g k top stack acc cs = Ok (acc ++ concat ls, cs').
Proof.
  induction ls as [|l ls IH]; intros top stack acc cs k F Hm Hl Hk; inversion F as [|x1 l1 y1 ls1 F1 F2]; subst.
  simpl in Hl, Hk, Hm. rewrite app_length in Hl, Hk. pose proof (stands_nonempty _ _ _ F1).
  assert (length stack <= length (concat ls)) by (eapply Forall2_concat_length; eauto; apply stands_nonempty).
  destruct (flatten_total g top l F1 (fun e He => Hm e (in_or_app _ _ _ (or_introl He))) stack acc cs) as (cs1 & H1); [lia|].
  replace k with (2 * length l - 1 + (k - (2 * length l - 1))) by lia. rewrite H1.
  destruct stack as [|e stack].
  - inversion F2; subst. simpl. rewrite app_nil_r. eauto.
  - destruct (IH e stack (acc ++ l) cs1 (k - (2 * length l - 1)) F2) as (cs' & E); auto.
    + intros x Hx. apply Hm. apply in_or_app. auto.
    + lia.
    + lia.
    + exists cs'. rewrite E. simpl. now rewrite app_assoc.
Qed.

Lemma flatten_endless g : forall k top stack acc cs, endless_first g top -> edge_count g FWD + 1 <= k + length stack -> 1 <= k ->
  exists m, flatten_loop g k top stack acc cs = Err m.
Proof.
  induction k as [|k IH]; intros top stack acc cs H Hk H1; [lia|].
  inversion H as [e a b E Ha]; subst. cbn [flatten_loop]. rewrite E. cbn [bind].
  destruct (Nat.ltb_spec (edge_count g FWD) (length (b :: stack))) as [Hx|Hx]; [eauto|].
  simpl in Hx. apply IH; auto; simpl; lia.
Qed.

(** *** expansion and routes *)
Lemma edge_det g e s d s' d' : edge_from_to g e s d -> edge_from_to g e s' d' -> s' = s /\ d' = d.
Proof. intros [A B] [C D]. split; congruence. Qed.

Lemma stands_connects g e l : shortcuts_fit g -> stands_for g e l -> forall s d, edge_from_to g e s d -> connects g s l d.
Proof.
  intros Hf. induction 1 as [e E|e a b la lb E Ha IHa Hb IHb]; intros s d He.
  - econstructor; eauto. constructor.
  - destruct (Hf _ _ _ _ _ E He) as (m & Am & Bm). eapply connects_app; eauto.
Qed.
Lemma all_connects g : shortcuts_fit g -> forall s es t, connects g s es t -> forall ls, Forall2 (stands_for g) es ls -> connects g s (concat ls) t.
Proof.
  intros Hf. induction 1 as [s|s e x es t He Hc IH]; intros ls F; inversion F as [|e' l es' ls' F1 F2]; subst; simpl; [constructor|].
  eapply connects_app; [|apply IH; auto]. eapply stands_connects; eauto.
Qed.
Lemma stands_sums g e l i : shortcuts_add_up g -> stands_for g e l -> forall x, metric_of g e i = Some (Fin x) ->
  exists q, sums g i l q /\ (q == x)%Q.
Proof.
  intros Hf. induction 1 as [e E|e a b la lb E Ha IHa Hb IHb]; intros x Hx.
  - exists (x + 0)%Q. split; [constructor; [auto|constructor]|ring].
  - destruct (Hf _ _ _ _ _ E Hx) as (y & z & Hy & Hz & Exyz). destruct (IHa y Hy) as (qa & Sa & Ea). destruct (IHb z Hz) as (qb & Sb & Eb).
    destruct (sums_app _ _ _ _ _ _ Sa Sb) as (r & Hr & Er). exists r. split; auto. rewrite Er, Ea, Eb, Exyz. reflexivity.
Qed.
Lemma all_sums g i : shortcuts_add_up g -> forall es q, sums g i es q -> forall ls, Forall2 (stands_for g) es ls ->
  exists q', sums g i (concat ls) q' /\ (q' == q)%Q.
Proof.
  intros Hf. induction 1 as [|e es x y He Hs IH]; intros ls F; inversion F as [|e' l es' ls' F1 F2]; subst; simpl.
  - exists 0%Q. split; [constructor|reflexivity].
  - destruct (IH ls' F2) as (q2 & S2 & E2). destruct (stands_sums g e l i Hf F1 x He) as (q1 & S1 & E1).
    destruct (sums_app _ _ _ _ _ _ S1 S2) as (r & Hr & Er). exists r. split; auto. rewrite Er, E1, E2. reflexivity.
Qed.

(** *** built graphs *)
Lemma build_metrics hav c ch1 ch2 es ns g e : 1 <= ch1 -> 1 <= ch2 -> build hav c ch1 ch2 es ns = Ok g ->
  e < edge_count g FWD -> exists ms, edge_metrics g e = Ok ms.
Proof.
  intros H1 H2 E He. pose proof (build_wf _ _ _ _ _ _ _ H1 H2 E) as Hwf.
  destruct (idx_lt (fwd_dsts g) e He) as [v Hv]. exact (wg_metrics _ Hwf FWD e v Hv).
Qed.

Lemma build_sc_edges hav c ch1 ch2 es ns g e a b : 1 <= ch1 -> 1 <= ch2 -> build hav c ch1 ch2 es ns = Ok g ->
  e < edge_count g FWD -> sc_edges g e = Ok (Some (a, b)) -> a < edge_count g FWD /\ b < edge_count g FWD.
Proof.
  intros H1 H2 E He Hsc. destruct (build_edges _ _ _ _ _ _ _ H1 H2 E) as (rep & orig & A & B & _).
  destruct (A e He) as (pe & P1 & _ & _ & _ & _ & P6). rewrite Hsc in P6.
  destruct (pe_sc pe) as [[p q]|] eqn:Ep; [|discriminate]. injection P6 as -> ->.
  assert (Hr : shortcuts_in_range es).
  { destruct (ProofGraph.build_spec _ _ _ _ _ _ _ H1 H2 E) as (bb & g0 & K & _ & _ & Hcore & _). exact (ProofBuild.cs_valid _ _ _ _ _ Hcore). }
  destruct (Hr pe p q (nth_error_In _ _ P1) Ep) as [Hp Hq].
  destruct (nth_error es p) as [pp|] eqn:Epp; [|apply nth_error_None in Epp; lia].
  destruct (nth_error es q) as [pq|] eqn:Epq; [|apply nth_error_None in Epq; lia].
  split; [apply (B p pp Epp)|apply (B q pq Epq)].
Qed.

Lemma stands_exist hav c ch1 ch2 es ns g e l : 1 <= ch1 -> 1 <= ch2 -> build hav c ch1 ch2 es ns = Ok g ->
  stands_for g e l -> e < edge_count g FWD -> forall x, In x l -> x < edge_count g FWD.
Proof.
  intros H1 H2 E. induction 1 as [e Es|e a b la lb Es Ha IHa Hb IHb]; intros He x Hx.
  - destruct Hx as [<-|[]]. auto.
  - destruct (build_sc_edges _ _ _ _ _ _ _ _ _ _ H1 H2 E He Es). apply in_app_or in Hx. destruct Hx; auto.
Qed.

Lemma build_fit hav c ch1 ch2 es ns g : 1 <= ch1 -> 1 <= ch2 -> build hav c ch1 ch2 es ns = Ok g ->
  inserted_shortcuts_fit es -> shortcuts_fit g.
Proof.
  intros H1 H2 E Hfit e a b s d Hsc He.
  destruct (build_edges _ _ _ _ _ _ _ H1 H2 E) as (rep & orig & A & B & _).
  pose proof (build_wf _ _ _ _ _ _ _ H1 H2 E) as Hwf.
  assert (Hlt : e < edge_count g FWD).
  { destruct He as [_ He]. apply idx_ok in He. apply nth_error_Some. intros X. congruence. }
  destruct (A e Hlt) as (pe & P1 & _ & (s0 & d0 & Pe & Ps & Pd) & _ & _ & P6). rewrite Hsc in P6.
  destruct (edge_det _ _ _ _ _ _ He Pe) as [-> ->].
  destruct (pe_sc pe) as [[p q]|] eqn:Ep; [|discriminate]. injection P6 as -> ->.
  destruct (Hfit pe p q (nth_error_In _ _ P1) Ep) as (pp & pq & Epp & Epq & F1 & F2 & F3).
  assert (Hends : forall i pi, nth_error es i = Some pi -> same_ends g (rep i) pi).
  { intros i pi Hi. destruct (B i pi Hi) as (Hlt' & pe' & Epe' & Hor). destruct (A _ Hlt') as (pe2 & Q1 & _ & Q3 & _).
    rewrite Epe' in Q1. injection Q1 as <-. destruct Hor as [Heq|Hsame].
    - rewrite Heq in Epe'. congruence.
    - destruct Hsame as (S1 & S2 & _). destruct Q3 as (x & y & X & Y & Z). exists x, y. split; [auto|]. split; congruence. }
  destruct (Hends p pp Epp) as (x1 & y1 & X1 & X2 & X3). destruct (Hends q pq Epq) as (x2 & y2 & Y1 & Y2 & Y3).
  assert (Hinj : forall i j z, node_id g i = Ok z -> node_id g j = Ok z -> i = j).
  { intros i j z Hi Hj. destruct (build_nodes _ _ _ _ _ _ _ H1 H2 E) as (Hs & _). unfold node_id in Hi, Hj.
    apply idx_ok in Hi, Hj. destruct (Nat.lt_trichotomy i j) as [L|[L|L]]; auto; exfalso.
    - pose proof (StronglySorted_nth _ _ _ _ _ _ Hs L Hi Hj). simpl in *. lia.
    - pose proof (StronglySorted_nth _ _ _ _ _ _ Hs L Hj Hi). simpl in *. lia. }
  exists y1. assert (x1 = s) as <- by (apply (Hinj _ _ (pe_src pe)); congruence).
  assert (y2 = d) as <- by (apply (Hinj _ _ (pe_dst pe)); congruence).
  assert (x2 = y1) as -> by (apply (Hinj _ _ (pe_src pq)); congruence). auto.
Qed.

Lemma nats_eqb_eq a : forall b, nats_eqb a b = true <-> a = b.
Proof.
  induction a as [|x a IH]; intros [|y b]; simpl; split; intros H; auto; try discriminate.
  - apply andb_prop in H. destruct H as [H1 H2]. apply Nat.eqb_eq in H1. apply IH in H2. congruence.
  - injection H as -> ->. rewrite Nat.eqb_refl. simpl. now apply IH.
Qed.
