(** Lemmas about the whole exploration *)
From Coq Require Import List Bool Arith Lia QArith Qabs Lqa.
From Verif Require Import Base F64 Lib ModelApprox ModelUnits ModelConfig ModelGraph ModelBuild ModelDijkstra ModelExplorator
  Spec SpecRouting SpecPaths SpecExplorator SpecCells ProofApprox ProofDijkstra ProofPaths ProofExplorator PropsRouting PropsExplorator
  ProofCells ProofCells2.
Import ListNotations.
Open Scope nat_scope.

Lemma considered_eq imc costs cc : considered_costs imc costs = Ok cc -> cc = map snd (filter fst (combine imc costs)).
Proof.
  unfold considered_costs, enumerate. intros E. apply bind_ok in E. destruct E as (l & El & E). injection E as <-. f_equal. f_equal.
  change (combine imc costs) with (combine (skipn 0 imc) costs). revert l El. generalize 0 as s.
  induction costs as [|x costs IH]; intros s l El; cbn [length seq combine mapM] in El.
  - injection El as <-. now destruct (skipn s imc).
  - cbn [fst snd] in El. apply bind_ok in El. destruct El as (y & Ey & El). apply bind_ok in El. destruct El as (l' & El' & El). injection El as <-.
    apply bind_ok in Ey. destruct Ey as (b & Eb & Ey). injection Ey as <-. apply IH in El'. subst l'. apply idx_ok in Eb.
    assert (G : skipn s imc = b :: skipn (S s) imc).
    { clear -Eb. revert s Eb. induction imc as [|z imc IH]; intros [|s] E; try discriminate; cbn in *; [congruence|auto]. }
    rewrite G. reflexivity.
Qed.

Lemma has_cheapest_incl g al s t eps a b : incl a b -> has_cheapest g al s t eps a -> has_cheapest g al s t eps b.
Proof. intros H (p & w & Hp & R). exists p, w. auto. Qed.

Section Rounds.
  Variable hav : coord -> coord -> f64.
  Variable cf : cfg.
  Variables ch1 ch2 : nat.
  Variable pes : list proto_edge.
  Variable pns : list proto_node.
  Variable g : graph.
  Hypothesis H1 : 1 <= ch1.
  Hypothesis H2 : 1 <= ch2.
  Hypothesis Hb : build hav cf ch1 ch2 pes pns = Ok g.
  Hypothesis Hnn : nonneg_metrics g.
  Hypothesis Hal : aligned_metrics g.
  Hypothesis Hf : finite_metrics g.
  Variable pick : nat -> list costnode -> nat.
  Variable delta : Q.
  Hypothesis Hdel : (0 <= delta)%Q.
  Hypothesis Hpk : picks_min delta pick.
  Variable fuel : nat.
  Variable q : xquery.
  Hypothesis Hs : xq_src q < node_count g.
  Hypothesis Ht : xq_dst q < node_count g.
  Hypothesis Hdim : xq_dim q = metric_dim g.
  Hypothesis Himc : length (xq_imc q) = xq_dim q.
  Hypothesis Halgo : finds_cheapest g (xq_rc q).
  Variable solve : list (list f64) -> list f64 -> option (list f64).
  Hypothesis Hsolve : exact_solver (metric_dim g) solve.
  Hypothesis HK : 0 < K q.
  Variable T : Type.
  Variable tri_new : nat -> T.
  Variable tri_add : T -> list f64 -> option (T * nat).
  Variable tri_cells : T -> list (nat * list nat).
  Hypothesis Hstable : stable_cells T tri_cells.
  Variable ids : T -> list nat.
  Hypothesis ids_new : forall d, ids (tri_new d) = [].
  Hypothesis ids_add : forall t c t' id, tri_add t c = Some (t', id) ->
    ~ In id (ids t) /\ forall k, In k (ids t') <-> k = id \/ In k (ids t).

  Notation realp := (real g q).
  Notation eps := (TOL + 2 * delta)%Q.
  Notation cheapest al ps := (has_cheapest g al (xq_src q) (xq_dst q) eps ps).

  (** what is known of a cell already visited *)
  Definition settled (found : list (nat * path)) (paths : list path) (id : nat) : Prop :=
    forall vs t, In (id, vs) (tri_cells t) ->
      exists cell, Forall2 (fun k v => lookup k found = Some v) vs cell /\
        forall al, looked_at q cell al -> cheapest al paths.

  Lemma settled_incl found a b id : incl a b -> settled found a id -> settled found b id.
  Proof.
    intros H Hse vs t Hin. destruct (Hse vs t Hin) as (cell & F & R). exists cell. split; auto. intros al Hl.
    eapply has_cheapest_incl; [exact H|auto].
  Qed.

  Lemma cells_in found vs cell v : Forall2 (fun k v => lookup k found = Some v) vs cell -> In v cell -> In v (map snd found).
  Proof.
    intros F. induction F as [|k v' vs cell E F IH]; intros [].
    - subst. apply lookup_in in E. apply in_map_iff. exists (k, v). auto.
    - auto.
  Qed.

  Lemma round found t0 cells : (forall id p, lookup id found = Some p -> realp p) ->
    (forall c, In c cells -> In c (tri_cells t0)) ->
    forall st vis new st' vis' new',
    history st -> roomy st g -> (forall p, In p new -> realp p) ->
    (forall id, In id vis -> settled found (map snd found ++ new) id) ->
    foldM (explore_cell pick fuel solve g q found) cells (st, vis, new) = Ok (st', vis', new') ->
    (history st' /\ roomy st' g) /\ (forall p, In p new' -> realp p) /\
    (forall id, In id vis' -> settled found (map snd found ++ new') id) /\
    incl vis vis' /\ (forall c, In c cells -> In (fst c) vis').
  Proof.
    intros Hfound. induction cells as [|c cells IH]; intros Hcells st vis new st' vis' new' Hh Hr Hnew Hset E; cbn [foldM] in E.
    - injection E as <- <- <-. split; [auto|]. split; [auto|]. split; [auto|]. split; [apply incl_refl|intros c []].
    - apply bind_ok in E. destruct E as ([[st1 vis1] new1] & E1 & E).
      assert (Hasked : forall al p, asked pick fuel g q al (Some p) -> realp p).
      { intros al p (sta & stb & A & B & C).
        exact (xbest_real _ _ _ _ _ _ _ _ _ q _ _ _ _ H1 H2 Hb Hnn Hal A B Hs Ht (proj1 Hpk) C). }
      destruct (explore_cell_inv solve pick fuel g q realp Hasked found (st, vis, new) c (st1, vis1, new1) (conj Hh Hr) Hnew E1) as ([Hh1 Hr1] & Hnew1).
      cbn [fst snd] in *.
      assert (Hinc : incl new new1).
      { unfold explore_cell in E1. destruct (existsb _ vis); [injection E1 as <- <- <-; apply incl_refl|].
        apply bind_ok in E1. destruct E1 as (cell & _ & E1). apply bind_ok in E1. destruct E1 as (miss & _ & E1).
        destruct miss; [injection E1 as <- <- <-; apply incl_refl|].
        apply bind_ok in E1. destruct E1 as ([[rows b]|] & _ & E1); [|injection E1 as <- <- <-; apply incl_refl].
        destruct (solve rows b); [|injection E1 as <- <- <-; apply incl_refl].
        apply bind_ok in E1. destruct E1 as ([st2 o] & _ & E1). cbn [fst snd] in E1. destruct o; [|injection E1 as <- <- <-; apply incl_refl].
        apply bind_ok in E1. destruct E1 as (cs & _ & E1). apply bind_ok in E1. destruct E1 as (v0 & _ & E1).
        apply bind_ok in E1. destruct E1 as (c0 & _ & E1).
        destruct (_ && _); injection E1 as <- <- <-; [apply incl_appl|]; apply incl_refl. }
      assert (Hvis1 : (existsb (fun k => k =? fst c) vis = true /\ vis1 = vis) \/
                      (existsb (fun k => k =? fst c) vis = false /\ vis1 = fst c :: vis /\ exists cell, cell_from found (snd c) = Ok cell)).
      { pose proof E1 as E2. unfold explore_cell in E2. destruct (existsb _ vis) eqn:Ee; [left; injection E2 as <- <- <-; auto|]. right. split; auto.
        apply bind_ok in E2. destruct E2 as (cell & Ec & E2). apply bind_ok in E2. destruct E2 as (miss & _ & E2).
        split; [|eauto]. destruct miss; [injection E2 as <- <- <-; auto|].
        apply bind_ok in E2. destruct E2 as ([[rows b]|] & _ & E2); [|injection E2 as <- <- <-; auto].
        destruct (solve rows b); [|injection E2 as <- <- <-; auto].
        apply bind_ok in E2. destruct E2 as ([st2 o] & _ & E2). cbn [fst snd] in E2. destruct o; [|injection E2 as <- <- <-; auto].
        apply bind_ok in E2. destruct E2 as (cs & _ & E2). apply bind_ok in E2. destruct E2 as (v0 & _ & E2).
        apply bind_ok in E2. destruct E2 as (c0 & _ & E2).
        destruct (_ && _); injection E2 as <- <- <-; auto. }
      assert (Hgrow : forall id, In id vis -> settled found (map snd found ++ new1) id).
      { intros id Hid. eapply settled_incl; [|exact (Hset id Hid)]. apply incl_app; [apply incl_appl, incl_refl|apply incl_appr; exact Hinc]. }
      assert (Hset1 : forall id, In id vis1 -> settled found (map snd found ++ new1) id).
      { intros id Hid. destruct Hvis1 as [[_ ->]|(Hno & -> & cell & Ecell)]; [auto|]. destruct Hid as [<-|Hid]; [|auto].
        destruct (real_cells _ _ _ _ _ _ g H1 H2 Hb Hal Hf q Hs Ht Hdim Himc found (snd c) cell Hfound Ecell) as (F & Rc & Cc).
        intros vs t Hin. assert (vs = snd c).
        { destruct c as [i w]. cbn [fst snd] in *. eapply Hstable; [exact Hin|]. apply Hcells. now left. }
        subst vs. exists cell. split; auto. intros al Hla.
        eapply has_cheapest_incl; [|exact (cell_settled _ _ _ _ _ _ g H1 H2 Hb Hnn Hal Hf pick delta Hdel Hpk fuel q Hs Ht Hdim Himc Halgo solve Hsolve
          found st vis new c _ _ new1 cell al HK Hfound Hnew Hh Hr Hno E1 F Hla)].
        intros v Hv. apply in_app_or in Hv. apply in_or_app. destruct Hv as [Hv|Hv]; auto. left. eapply cells_in; eauto. }
      destruct (IH (fun c' H => Hcells c' (or_intror H)) st1 vis1 new1 st' vis' new' Hh1 Hr1 Hnew1 Hset1 E) as (A & B & C & D & F).
      split; auto. split; auto. split; auto.
      assert (Hiv : incl vis vis1) by (destruct Hvis1 as [[_ ->]|(_ & -> & _)]; [apply incl_refl|apply incl_tl, incl_refl]).
      split; [intros x Hx; apply D, Hiv, Hx|].
      intros c' [<-|Hc']; [|auto]. apply D. destruct Hvis1 as [[He ->]|(_ & -> & _)]; [|now left].
      apply existsb_exists in He. destruct He as (k & Hk & Ek). apply Nat.eqb_eq in Ek. now subst.
  Qed.

  (** the state between rounds *)
  Record winv (s : xstate T) : Prop := {
    wi_holds : holds T tri_new tri_add (xq_imc q) (xs_tri T s) (xs_found T s);
    wi_real : forall id p, In (id, p) (xs_found T s) -> realp p;
    wi_keys : forall id p, In (id, p) (xs_found T s) -> In id (ids (xs_tri T s));
    wi_tolids : forall id, In id (xs_tolerated T s) -> In id (ids (xs_tri T s));
    wi_tolnd : NoDup (xs_tolerated T s);
    wi_tol : Forall2 (fun id p => lookup id (xs_found T s) = Some p) (xs_tolerated T s)
               (filter (tol_ok (xq_tol q)) (rev (map snd (xs_found T s))));
    wi_set : forall id, In id (xs_visited T s) -> settled (xs_found T s) (map snd (xs_found T s)) id;
  }.

  Lemma remove_absent id m : (forall p, ~ In (id, p) m) -> remove_id id m = m.
  Proof.
    intros H. induction m as [|[k p] m IH]; [reflexivity|]. cbn. destruct (Nat.eqb_spec k id) as [->|Hk].
    - exfalso. apply (H p). now left.
    - cbn. f_equal. apply IH. intros p' Hp'. apply (H p'). now right.
  Qed.

  Lemma lookup_keys id m p : lookup id m = Some p -> In (id, p) m.
  Proof. apply lookup_in. Qed.

  (** adding paths keeps the state; [P]: what the visited cells are promised
      of the paths present once all are added *)
  Lemma add_paths new : forall s s',
    (forall p, In p new -> realp p) ->
    holds T tri_new tri_add (xq_imc q) (xs_tri T s) (xs_found T s) ->
    (forall id p, In (id, p) (xs_found T s) -> realp p) ->
    (forall id p, In (id, p) (xs_found T s) -> In id (ids (xs_tri T s))) ->
    (forall id, In id (xs_tolerated T s) -> In id (ids (xs_tri T s))) ->
    NoDup (xs_tolerated T s) ->
    Forall2 (fun id p => lookup id (xs_found T s) = Some p) (xs_tolerated T s)
      (filter (tol_ok (xq_tol q)) (rev (map snd (xs_found T s)))) ->
    (forall id, In id (xs_visited T s) -> settled (xs_found T s) (map snd (xs_found T s) ++ new) id) ->
    foldM (update_path T tri_add q) new s = Ok s' ->
    winv s' /\ xs_visited T s' = xs_visited T s /\ xs_dirty T s' = xs_dirty T s /\ incl (xs_found T s) (xs_found T s') /\
    incl new (map snd (xs_found T s')) /\ length (xs_found T s') = length new + length (xs_found T s) /\
    (new = [] -> s' = s).
  Proof using ids_add.
    clear - ids_add.
    induction new as [|p new IH]; intros s s' Hnew Hh Hre Hk Hti Hnd Hto Hse E; cbn [foldM] in E.
    - injection E as <-. split; [|repeat split; auto; try apply incl_refl; intros ? []]. constructor; auto.
      intros id Hid. specialize (Hse id Hid). now rewrite app_nil_r in Hse.
    - apply bind_ok in E. destruct E as (s1 & E1 & E).
      unfold update_path in E1. apply bind_ok in E1. destruct E1 as (cs & Ecs & E1). apply path_costs_ok in Ecs.
      apply bind_ok in E1. destruct E1 as (cc & Ecc & E1). apply bind_ok in E1. destruct E1 as ([tri id] & Ea & E1).
      unfold expect in Ea. destruct (tri_add (xs_tri T s) cc) as [[tri' id']|] eqn:Et; [|discriminate]. injection Ea as -> ->.
      destruct (ids_add _ _ _ _ Et) as [Hnotin Hids]. injection E1 as <-. apply considered_eq in Ecc. subst cc.
      assert (Habs : remove_id id (xs_found T s) = xs_found T s) by (apply remove_absent; intros p' Hp'; apply Hnotin; eauto).
      rewrite Habs in E.
      assert (Hlk : forall k v, lookup k (xs_found T s) = Some v -> lookup k ((id, p) :: xs_found T s) = Some v).
      { intros k v Hv. cbn [lookup]. destruct (Nat.eqb_spec id k) as [->|]; auto. exfalso. apply Hnotin. apply lookup_in in Hv. eauto. }
      assert (HF2 : forall l l', Forall2 (fun k v => lookup k (xs_found T s) = Some v) l l' -> Forall2 (fun k v => lookup k ((id, p) :: xs_found T s) = Some v) l l').
      { induction 1; constructor; auto. }
      match type of E with foldM _ _ ?x = _ => set (s1 := x) in * end.
      destruct (IH s1 s') as (W & V & D & I & N & L & _); try exact E.
      + intros p' Hp'. apply Hnew. now right.
      + cbn. econstructor; eauto.
      + cbn. intros k p' [H|H]; [injection H as <- <-; apply Hnew; now left|eauto].
      + cbn. intros k p' [H|H]; [injection H as <- <-; apply Hids; auto|apply Hids; right; eauto].
      + cbn. intros k Hkk. apply Hids. destruct (approx_le_vec cs (xq_tol q)); auto. apply in_app_or in Hkk. destruct Hkk as [Hkk|[<-|[]]]; auto.
      + cbn. destruct (approx_le_vec cs (xq_tol q)); auto. apply NoDup_rev in Hnd. rewrite <- (rev_involutive (_ ++ [id])). apply NoDup_rev.
        rewrite rev_app_distr. cbn. constructor; auto. rewrite <- in_rev. intros H. apply Hnotin; auto.
      + cbn [xs_found xs_tolerated s1 map snd rev]. rewrite filter_app. cbn [filter].
        assert (Hok : tol_ok (xq_tol q) p = approx_le_vec cs (xq_tol q)) by (unfold tol_ok; now rewrite Ecs). rewrite Hok.
        destruct (approx_le_vec cs (xq_tol q)).
        * apply Forall2_app; auto. constructor; [|constructor]. cbn [lookup]. now rewrite Nat.eqb_refl.
        * rewrite app_nil_r. auto.
      + cbn [xs_visited xs_found s1]. intros k Hkk vs t Hin. destruct (Hse k Hkk vs t Hin) as (cell & F & R). exists cell. split; auto.
        intros al Hla. eapply has_cheapest_incl; [|exact (R al Hla)]. cbn [map snd]. intros v Hv. apply in_app_or in Hv.
        destruct Hv as [Hv|[<-|Hv]]; [right; apply in_or_app; auto|now left|right; apply in_or_app; auto].
      + split; auto. split; [exact V|]. split; [exact D|]. split; [intros x Hx; apply I; now right|]. split.
        * intros x [<-|Hx]; auto. apply in_map_iff. exists (id, p). split; auto. apply I. now left.
        * split; [cbn in L; cbn; lia|discriminate].
  Qed.

  Lemma explore_settles rounds : forall st s st' s', history st -> roomy st g -> winv s ->
    (xs_dirty T s = false -> forall c, In c (tri_cells (xs_tri T s)) -> In (fst c) (xs_visited T s)) ->
    explore pick fuel T tri_add tri_cells solve g q rounds st s = Ok (st', s') ->
    (history st' /\ roomy st' g) /\ winv s' /\ incl (xs_found T s) (xs_found T s') /\
    forall c, In c (tri_cells (xs_tri T s')) -> In (fst c) (xs_visited T s').
  Proof.
    induction rounds as [|k IH]; intros st s st' s' Hh Hr Hi Hdone E; cbn [explore] in E; destruct (xs_dirty T s) eqn:Ed; try discriminate.
    1,3: injection E as <- <-; split; [auto|split; [exact Hi|split; [apply incl_refl|auto]]].
    apply bind_ok in E. destruct E as ([[st1 vis] new] & Ef & E). apply bind_ok in E. destruct E as (s1 & Eu & E).
    destruct Hi as [W1 W2 W3 W4 W5 W6 W7].
    destruct (round (xs_found T s) (xs_tri T s) (tri_cells (xs_tri T s))
                (fun id p H => W2 id p (lookup_in _ _ _ H)) (fun c H => H) st (xs_visited T s) [] st1 vis new Hh Hr) as ([Hh1 Hr1] & Rn & Rs & Ri & Rc);
      [intros p []|intros id Hid; rewrite app_nil_r; auto|exact Ef|].
    unfold update in Eu. cbn [xs_tri xs_found xs_tolerated xs_visited] in Eu.
    destruct (add_paths new {| xs_tri := xs_tri T s; xs_found := xs_found T s; xs_tolerated := xs_tolerated T s; xs_visited := vis;
                xs_dirty := negb (length new =? 0) |} s1 Rn W1 W2 W3 W4 W5 W6 Rs Eu) as (W & V & D & I & N & L & Z). cbn [xs_visited xs_dirty xs_found] in *.
    destruct (IH st1 s1 st' s' Hh1 Hr1 W) as (A & B & C & F); [|exact E|].
    - intros Hd c Hc. rewrite V. rewrite D in Hd. destruct new as [|p new]; [|discriminate]. specialize (Z eq_refl). subst s1. cbn in Hc. auto.
    - split; [exact A|]. split; [exact B|]. split; [|exact F]. intros x Hx. apply C, I, Hx.
  Qed.
End Rounds.
