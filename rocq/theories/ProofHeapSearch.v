(** The search with the binary heap follows the search with an arbitrary queue *)
From Coq Require Import String List Bool Arith ZArith QArith Qabs Lia Lqa Permutation.
From Verif Require Import Base F64 Lib ProofNodes ModelApprox ProofApprox ModelUnits ModelConfig ModelGraph ModelBuild Spec
  ModelDijkstra AbsSearch SpecRouting ProofDijkstra ProofRouting ExamplesRouting ModelHeap SpecHeap ProofHeap PropsRouting.
Import ListNotations.
Open Scope list_scope.
Open Scope nat_scope.

(** *** The order of the entries *)
Definition ckey (c : costnode) : Q := match cn_cost c with Fin q => q | _ => 0%Q end.

Lemma rev_le_true x y a b : cn_cost x = Fin a -> cn_cost y = Fin b -> rev_le x y = true -> (b < a + TOL)%Q.
Proof.
  unfold rev_le, cn_cmp. intros -> ->. destruct (approx_cmp_fin b a) as [c Hc]. rewrite Hc. destruct c; cbn [then_with]; intros H.
  - apply approx_cmp_eq in Hc. apply Qabs_lt_iff in Hc. lra.
  - apply approx_cmp_lt in Hc. unfold TOL in *. lra.
  - discriminate.
Qed.
Lemma rev_le_false x y a b : cn_cost x = Fin a -> cn_cost y = Fin b -> rev_le x y = false -> (a < b + TOL)%Q.
Proof.
  unfold rev_le, cn_cmp. intros -> ->. destruct (approx_cmp_fin b a) as [c Hc]. rewrite Hc. destruct c; cbn [then_with]; intros H.
  - apply approx_cmp_eq in Hc. apply Qabs_lt_iff in Hc. lra.
  - discriminate.
  - apply approx_cmp_gt in Hc. unfold TOL in *. lra.
Qed.

(** *** Objects that differ in the order of their queues only *)
Record same (st sh : dijkstra) : Prop := mkSame {
  sm_ch : dj_ch st = dj_ch sh;
  sm_que : Permutation (dj_queue st) (dj_queue sh);
  sm_costs : dj_costs st = dj_costs sh;
  sm_preds : dj_preds st = dj_preds sh;
  sm_vis : dj_visited st = dj_visited sh;
  sm_found : dj_found st = dj_found sh;
  sm_touched : dj_touched st = dj_touched sh;
}.
(** results *)
Definition alike {A B} (R : A -> B -> Prop) (x : res A) (y : res B) : Prop :=
  match x, y with
  | Ok a, Ok b => R a b
  | Err e, Err e' => e = e'
  | Panic, Panic => True
  | Diverge, Diverge => True
  | _, _ => False
  end.
Lemma alike_bind {A B C D} (R : A -> B -> Prop) (S : C -> D -> Prop) x y (f : A -> res C) (g : B -> res D) :
  alike R x y -> (forall a b, R a b -> x = Ok a -> y = Ok b -> alike S (f a) (g b)) -> alike S (bind x f) (bind y g).
Proof. destruct x, y; simpl; intros H K; try contradiction; auto. Qed.
Lemma alike_refl {A} (R : A -> A -> Prop) x : (forall a, R a a) -> alike R x x.
Proof. destruct x; simpl; auto. Qed.

Lemma same_refl st : same st st.
Proof. constructor; auto. Qed.

(** *** The queue's error *)
Section Order.
  (** number of nodes, costs that occur, and the error of comparing them *)
  Variable nn : nat.
  Variable R : Q -> Prop.
  Variable eps : Q.
  Hypothesis eps_nonneg : (0 <= eps)%Q.
  Hypothesis R_close : forall a b, R a -> R b -> (a < b + TOL)%Q -> (a <= b + eps)%Q.

  Definition entry_ok (c : costnode) : Prop := cn_idx c < nn /\ exists q, cn_cost c = Fin q /\ (0 <= q)%Q /\ R q.
  Lemma le_true x y : entry_ok x -> entry_ok y -> rev_le x y = true -> (ckey y <= ckey x + eps)%Q.
  Proof.
    intros (_ & a & Ea & _ & Ra) (_ & b & Eb & _ & Rb) H. unfold ckey. rewrite Ea, Eb. apply R_close; auto.
    exact (rev_le_true x y a b Ea Eb H).
  Qed.
  Lemma le_false x y : entry_ok x -> entry_ok y -> rev_le x y = false -> (ckey x <= ckey y + eps)%Q.
  Proof.
    intros (_ & a & Ea & _ & Ra) (_ & b & Eb & _ & Rb) H. unfold ckey. rewrite Ea, Eb. apply R_close; auto.
    exact (rev_le_false x y a b Ea Eb H).
  Qed.

  (** the queue after operations worth an error of [n * eps] *)
  Definition heap_ok (n : nat) (h : list costnode) : Prop :=
    Forall entry_ok h /\ bounded costnode ckey (inject_Z (Z.of_nat n) * eps) h.
  Lemma err_nonneg n : (0 <= inject_Z (Z.of_nat n) * eps)%Q.
  Proof. apply Qmult_le_0_compat; auto. change 0%Q with (inject_Z 0). rewrite <- Zle_Qle. lia. Qed.
  Lemma err_add n k : (inject_Z (Z.of_nat (n + k)) * eps == inject_Z (Z.of_nat n) * eps + inject_Z (Z.of_nat k) * eps)%Q.
  Proof. rewrite Nat2Z.inj_add, inject_Z_plus. ring. Qed.
  Lemma bounded_le B B' h : (B <= B')%Q -> bounded costnode ckey B h -> bounded costnode ckey B' h.
  Proof. intros H Hb i k x y Ho Hx Hy. specialize (Hb i k x y Ho Hx Hy). lra. Qed.
  Lemma heap_ok_le n n' h : n <= n' -> heap_ok n h -> heap_ok n' h.
  Proof.
    intros H [A B]. split; auto. eapply bounded_le; [|exact B]. replace n' with (n + (n' - n)) by lia. rewrite err_add.
    pose proof (err_nonneg (n' - n)). lra.
  Qed.
  Lemma push_ok n h x : heap_ok n h -> entry_ok x -> heap_ok (n + 1) (heap_push rev_le x h).
  Proof.
    intros [A B] Hx. split.
    - rewrite heap_push_perm. constructor; auto.
    - eapply bounded_le; [|apply (heap_push_bounded costnode rev_le ckey entry_ok eps eps_nonneg le_true le_false _ h x (err_nonneg n) A Hx B)].
      rewrite err_add. change (inject_Z (Z.of_nat 1)) with 1%Q. lra.
  Qed.
  Lemma pop_ok n h x h' : heap_ok n h -> heap_pop rev_le h = Some (x, h') ->
    heap_ok (n + 2) h' /\ entry_ok x /\ forall y, In y h -> (ckey x <= ckey y + inject_Z (Z.of_nat n) * eps)%Q.
  Proof.
    intros [A B] E. destruct (heap_pop_perm costnode rev_le h x h' E) as [Hp _].
    destruct (heap_pop_bounded costnode rev_le ckey entry_ok eps eps_nonneg le_true le_false _ h x h' (err_nonneg n) A B E) as [C D].
    pose proof A as A'. rewrite Hp in A'. inversion A'; subst. split; [split|split]; auto.
    eapply bounded_le; [|exact C]. rewrite err_add. change (inject_Z (Z.of_nat 2)) with 2%Q. lra.
  Qed.

End Order.

Section Follow.
  Variables (g : graph) (alphas : list f64).
  Hypothesis wf : wf_graph g.
  Hypothesis nonneg : nonneg_metrics g.
  Hypothesis alphas_ok : Forall not_negative alphas.
  (** costs that occur, and the error of comparing them *)
  Variable R : Q -> Prop.
  Variable eps : Q.
  Hypothesis eps_nonneg : (0 <= eps)%Q.
  Hypothesis R_zero : R 0%Q.
  Hypothesis R_step : forall q e ms w, R q -> edge_metrics g e = Ok ms -> dot_product alphas ms = Fin w -> R (q + w)%Q.
  Hypothesis R_close : forall a b, R a -> R b -> (a < b + TOL)%Q -> (a <= b + eps)%Q.

  Notation entry_ok := (entry_ok (node_count g) R).
  Notation heap_ok := (heap_ok (node_count g) R eps).
  Notation heap_ok_le := (heap_ok_le (node_count g) R eps eps_nonneg).
  Notation push_ok := (push_ok (node_count g) R eps eps_nonneg R_close).
  Notation pop_ok := (pop_ok (node_count g) R eps eps_nonneg R_close).
  Notation err_nonneg := (err_nonneg eps eps_nonneg).
  Notation err_add := (err_add eps).

  Definition same_ok (n : nat) (st sh : dijkstra) : Prop := same st sh /\ heap_ok n (dj_queue sh).

  Lemma relax_edge_alike n enq d e v q ms st sh : same_ok n st sh -> v < node_count g -> (0 <= q)%Q -> R q -> edge_metrics g e = Ok ms ->
    alike (same_ok (n + 1)) (relax_edge enq d e v (fadd (Fin q) (dot_product alphas ms)) st)
                            (relax_edge_h enq d e v (fadd (Fin q) (dot_product alphas ms)) sh).
  Proof.
    intros [[S1 S2 S3 S4 S5 S6 S7] H] Hv Hq HR Em. unfold relax_edge, relax_edge_h. rewrite S3, S4, S1, S5, S6, S7.
    destruct (idx (get (dj_costs sh) d) v) as [old| | |] eqn:Eo; cbn [bind alike]; auto.
    destruct (fltb _ old) eqn:El.
    2: { split; [constructor; auto|]. apply (heap_ok_le n); [lia|auto]. }
    destruct (set (get (dj_preds sh) d) v (Some e)) as [ps| | |]; cbn [bind alike]; auto.
    destruct (set (get (dj_costs sh) d) v _) as [cs| | |]; cbn [bind alike]; auto.
    assert (Hw : not_negative (dot_product alphas ms)).
    { apply dot_not_negative; auto. apply Forall_forall. intros x. now apply (nonneg e ms). }
    assert (He : entry_ok {| cn_idx := v; cn_cost := fadd (Fin q) (dot_product alphas ms); cn_dir := d |}).
    { split; [exact Hv|]. cbn [cn_cost]. destruct (dot_product alphas ms) as [w| | |] eqn:Ed; cbn [fadd not_negative] in *;
        try contradiction; try (unfold fltb in El; destruct old; discriminate).
      exists (q + w)%Q. split; [reflexivity|]. split; [lra|]. apply (R_step q e ms w); auto. }
    destruct enq.
    - split; [|now apply push_ok]. constructor; cbn [dj_ch dj_queue dj_costs dj_preds dj_visited dj_found dj_touched]; auto.
      rewrite heap_push_perm. now constructor.
    - split; [|apply (heap_ok_le n); [lia|auto]]. constructor; auto.
  Qed.

  Lemma relax_edge_h_ch enq d e v nc sh sh' : relax_edge_h enq d e v nc sh = Ok sh' -> dj_ch sh' = dj_ch sh.
  Proof.
    unfold relax_edge_h. intros E. apply bind_ok in E. destruct E as (old & _ & E). destruct (fltb nc old); [|now injection E as <-].
    apply bind_ok in E. destruct E as (ps & _ & E). apply bind_ok in E. destruct E as (cs & _ & E). now injection E as <-.
  Qed.

  Lemma relax_alike enq c q es : forall n st sh, same_ok n st sh -> cn_cost c = Fin q -> (0 <= q)%Q -> R q ->
    alike (same_ok (n + length es)) (relax g alphas enq c es st) (relax_h g alphas enq c es sh).
  Proof.
    induction es as [|e es IH]; intros n st sh H Ec Hq HR; cbn [relax relax_h length].
    - rewrite Nat.add_0_r. exact H.
    - destruct (dst_idx g (cn_dir c) e) as [v| | |] eqn:Ev; cbn [bind alike]; auto.
      rewrite (sm_ch _ _ (proj1 H)).
      destruct (if dj_ch sh then _ else _) as [down| | |]; cbn [bind alike]; auto.
      destruct down; [destruct H as [A B]; split; [auto|]; apply (heap_ok_le n); [lia|auto]|].
      destruct (edge_metrics g e) as [ms| | |] eqn:Em; cbn [bind alike]; auto.
      rewrite Ec. eapply alike_bind; [apply (relax_edge_alike n); auto; apply (wg_dst _ wf _ _ _ Ev)|].
      intros st1 sh1 H1 _ _. replace (n + S (length es)) with (n + 1 + length es) by lia. apply IH; auto.
  Qed.

  Lemma degree_bound d v l : v < node_count g -> starting_from g d v = Ok l -> length l <= edge_count g FWD.
  Proof.
    intros Hv E. destruct (wg_start _ wf d v Hv) as [(l' & E' & Hn & Hl)|[E' _]]; [|congruence].
    assert (l' = l) by congruence. subst l'. apply NoDup_bound; auto. intros e He. apply Hl in He.
    apply idx_ok in He. pose proof (nth_error_lt _ _ _ He) as Hlt. fold (edge_count g (opp d)) in Hlt.
    destruct d; cbn [opp] in *; [now rewrite (wg_count _ wf) in Hlt|auto].
  Qed.

  Lemma iteration_alike n st sh best c : same_ok n st sh -> entry_ok c ->
    alike (fun x y => same_ok (n + edge_count g FWD) (fst x) (fst y) /\ snd x = snd y)
      (iteration g alphas st best c) (iteration_h g alphas sh best c).
  Proof.
    intros [[S1 S2 S3 S4 S5 S6 S7] H] (Hv & q & Ec & Hq & HR). unfold iteration, iteration_h.
    unfold has_improved. rewrite S3. destruct (idx (get (dj_costs sh) (cn_dir c)) (cn_idx c)) as [x| | |]; cbn [bind alike]; auto.
    assert (Hle : heap_ok (n + edge_count g FWD) (dj_queue sh)) by (apply (heap_ok_le n); [lia|auto]).
    destruct (negb (fleb (cn_cost c) x)).
    { cbn [fst snd]. split; [split; [constructor; auto|auto]|reflexivity]. }
    assert (Hvis : alike (fun x y => same_ok n x y) (visit st c) (visit sh c)).
    { unfold visit. rewrite S1, S5. destruct (dj_ch sh) eqn:Ech; [split; [constructor; auto; congruence|auto]|].
      destruct (set _ _ _) as [v| | |]; cbn [bind alike]; auto. split; [|exact H].
      constructor; cbn [with_visited dj_ch dj_queue dj_costs dj_preds dj_visited dj_found dj_touched]; auto; congruence. }
    eapply alike_bind; [exact Hvis|]. intros st1 sh1 [[T1 T2 T3 T4 T5 T6 T7] H1] _ _.
    assert (Hmeet : meet st1 best c = meet sh1 best c).
    { unfold meet, is_meeting, total_cost. now rewrite T1, T3, T5. }
    rewrite Hmeet. destruct (meet sh1 best c) as [[best1 over]| | |]; cbn [bind alike]; auto.
    destruct over.
    { cbn [fst snd]. split; [split|reflexivity].
      - constructor; cbn [with_found dj_ch dj_queue dj_costs dj_preds dj_visited dj_found dj_touched]; auto. now rewrite T6.
      - cbn [with_found dj_queue]. apply (heap_ok_le n); [lia|auto]. }
    destruct (starting_from g (cn_dir c) (cn_idx c)) as [es| | |] eqn:Es; cbn [bind alike]; auto.
    pose proof (degree_bound _ _ _ Hv Es) as Hd. rewrite T1.
    eapply alike_bind; [apply (relax_alike _ c q es n); auto; split; [constructor; auto|auto]|].
    intros st2 sh2 [A B] _ _. cbn [alike fst snd]. split; [split; [auto|]|reflexivity]. apply (heap_ok_le (n + length es)); [lia|auto].
  Qed.

  (** *** picking what the heap delivers *)
  Definition near (delta : Q) (c x : costnode) : bool :=
    match cn_cost c, cn_cost x with Fin a, Fin b => Qle_bool a (b + delta) | _, _ => true end.
  Definition follow (delta : Q) (f : nat -> nat) (k : nat) (q : list costnode) : nat :=
    match nth_error q (f k) with
    | Some c => if forallb (near delta c) q then f k else exact_pick k q
    | None => exact_pick k q
    end.
  Lemma follow_picks delta f : (0 <= delta)%Q -> picks_min delta (follow delta f).
  Proof.
    intros Hd. split.
    - intros k q Hq. unfold follow. destruct (nth_error q (f k)) as [c|] eqn:E; [|now apply exact_valid].
      destruct (forallb _ _); [now apply nth_error_lt in E|now apply exact_valid].
    - intros k q c a x b E Ea Hx Eb.
      assert (G : nth_error q (exact_pick k q) = Some c -> (a <= b + delta)%Q).
      { intros E'. pose proof (proj2 exact_picks k q c a x b E' Ea Hx Eb). lra. }
      unfold follow in E. destruct (nth_error q (f k)) as [c'|] eqn:E'; [|auto].
      destruct (forallb (near delta c') q) eqn:Ef; [|auto]. assert (c' = c) by congruence. subst c'.
      rewrite forallb_forall in Ef. specialize (Ef x Hx). unfold near in Ef. rewrite Ea, Eb in Ef. now apply Qle_bool_iff in Ef.
  Qed.
  Lemma follow_at delta f k q c : nth_error q (f k) = Some c ->
    (forall x a b, In x q -> cn_cost c = Fin a -> cn_cost x = Fin b -> (a <= b + delta)%Q) -> follow delta f k q = f k.
  Proof.
    intros E H. unfold follow. rewrite E. replace (forallb (near delta c) q) with true; auto. symmetry. apply forallb_forall.
    intros x Hx. unfold near. destruct (cn_cost c) as [a| | |] eqn:Ea; auto. destruct (cn_cost x) as [b| | |] eqn:Eb; auto.
    apply Qle_bool_iff. eapply H; eauto.
  Qed.
  Lemma search_ext pick pick' fuel : forall k st best, (forall k' q, k <= k' -> pick k' q = pick' k' q) ->
    search pick g alphas fuel k st best = search pick' g alphas fuel k st best.
  Proof.
    induction fuel as [|fu IH]; intros k st best H; cbn [search]; [reflexivity|].
    destruct (dj_queue st) as [|c0 q0] eqn:Eq; [reflexivity|]. rewrite (H k) by lia.
    destruct (idx _ _) as [c| | |]; cbn [bind]; auto. destruct (has_found _); auto.
    destruct (iteration _ _ _ _ _) as [r| | |]; cbn [bind]; auto. apply IH. intros k' q Hk. apply H. lia.
  Qed.

  Lemma remove_perm (l : list costnode) : forall i c h, nth_error l i = Some c -> Permutation l (c :: h) -> Permutation (remove_nth i l) h.
  Proof.
    intros i c h E Hp. apply (Permutation_cons_inv (a := c)). rewrite <- Hp. clear Hp h. revert i E.
    induction l as [|x l IH]; intros [|i] E; try discriminate; cbn [remove_nth].
    - injection E as ->. reflexivity.
    - rewrite perm_swap. constructor. now apply IH.
  Qed.

  Definition budget (k : nat) : nat := 2 + (edge_count g FWD + 2) * k.
  Lemma search_alike N fuel : forall k st sh best, k + fuel <= N -> same_ok (budget k) st sh ->
    exists f, alike (fun x y => same (fst x) (fst y) /\ snd x = snd y)
                (search (follow (inject_Z (Z.of_nat (budget N)) * eps) f) g alphas fuel k st best) (search_h g alphas fuel sh best).
  Proof.
    set (delta := (inject_Z (Z.of_nat (budget N)) * eps)%Q).
    induction fuel as [|fu IH]; intros k st sh best Hk [H Hh].
    - exists (fun _ => 0). cbn [search search_h]. destruct (heap_pop rev_le (dj_queue sh)) as [[c q]|] eqn:Ep.
      + destruct (dj_queue st) as [|c0 q0] eqn:Eq; [|exact I]. pose proof (sm_que _ _ H) as Hq. rewrite Eq in Hq.
        apply Permutation_nil in Hq. rewrite Hq in Ep. discriminate.
      + apply heap_pop_none in Ep. pose proof (sm_que _ _ H) as Hq. rewrite Ep in Hq. apply Permutation_sym, Permutation_nil in Hq. rewrite Hq.
        cbn [alike fst snd]. auto.
    - cbn [search_h]. destruct (heap_pop rev_le (dj_queue sh)) as [[c q]|] eqn:Ep.
      2: { exists (fun _ => 0). cbn [search]. apply heap_pop_none in Ep. pose proof (sm_que _ _ H) as Hq. rewrite Ep in Hq.
           apply Permutation_sym, Permutation_nil in Hq. rewrite Hq. cbn [alike fst snd]. auto. }
      destruct (heap_pop_perm costnode rev_le _ _ _ Ep) as [Hp _]. destruct (pop_ok _ _ _ _ Hh Ep) as (Hq & Hc & Hmin).
      pose proof (sm_que _ _ H) as Hperm.
      assert (Hin : In c (dj_queue st)) by (rewrite Hperm, Hp; now left).
      apply In_nth_error in Hin. destruct Hin as [i Hi].
      set (st0 := with_queue st (remove_nth i (dj_queue st))). set (sh0 := with_queue sh q).
      assert (H0 : same_ok (budget k + 2) st0 sh0).
      { split; [|exact Hq]. destruct H as [A1 A2 A3 A4 A5 A6 A7].
        constructor; cbn [with_queue st0 sh0 dj_ch dj_queue dj_costs dj_preds dj_visited dj_found dj_touched]; auto.
        apply (remove_perm _ i c); auto. now rewrite Hperm. }
      assert (Hat : forall f, f k = i -> follow delta f k (dj_queue st) = i).
      { intros f Hf. rewrite <- Hf. apply (follow_at delta f k _ c); [now rewrite Hf|].
        intros x a b Hx Ea Eb. rewrite Hperm in Hx. specialize (Hmin x Hx). unfold ckey in Hmin. rewrite Ea, Eb in Hmin.
        assert (Hb : budget k <= budget N) by (unfold budget; nia).
        unfold delta. replace (budget N) with (budget k + (budget N - budget k)) by lia. rewrite err_add.
        pose proof (err_nonneg (budget N - budget k)). lra. }
      assert (Hst : forall f, f k = i -> search (follow delta f) g alphas (S fu) k st best =
                 if has_found st0 then Ok (st0, best) else do r <- iteration g alphas st0 best c; search (follow delta f) g alphas fu (S k) (fst r) (snd r)).
      { intros f Hf. cbn [search]. rewrite (Hat f Hf). destruct (dj_queue st) as [|c0 q0] eqn:Eq; [destruct i; discriminate|].
        unfold idx. rewrite Hi. reflexivity. }
      destruct (has_found sh0) eqn:Ef.
      { exists (fun _ => i). rewrite Hst by reflexivity.
        assert (Ef' : has_found st0 = true). { unfold has_found in *. cbn [st0 sh0 with_queue dj_found] in *. now rewrite (sm_found _ _ H). }
        rewrite Ef'. cbn [alike fst snd]. split; [apply H0|reflexivity]. }
      assert (Ef' : has_found st0 = false). { unfold has_found in *. cbn [st0 sh0 with_queue dj_found] in *. now rewrite (sm_found _ _ H). }
      pose proof (iteration_alike _ _ _ best c H0 Hc) as Hit.
      destruct (iteration g alphas st0 best c) as [[st1 b1]| | |] eqn:E1; destruct (iteration_h g alphas sh0 best c) as [[sh1 b1']| | |] eqn:E2;
        cbn [alike fst snd] in Hit; try contradiction;
        try (exists (fun _ => i); rewrite Hst by reflexivity; rewrite Ef'; try rewrite E1; cbn [bind alike]; auto; fail).
      destruct Hit as [Hit <-]. cbn [bind fst snd].
      destruct (IH (S k) st1 sh1 b1) as (f & Hf); [lia| |].
      { destruct Hit as [I1 I2]. split; [auto|]. eapply heap_ok_le; [|exact I2]. unfold budget. lia. }
      exists (fun k' => if k' =? k then i else f k'). rewrite Hst by now rewrite Nat.eqb_refl. rewrite Ef'. try rewrite E1. cbn [bind fst snd].
      rewrite (search_ext _ (follow delta f)); [exact Hf|].
      intros k' q' Hk'. unfold follow. destruct (Nat.eqb_spec k' k); [lia|reflexivity].
  Qed.

  Lemma start_alike s t st : dj_queue st = [] -> s < node_count g -> t < node_count g -> alike (same_ok 2) (start s t st) (start_h s t st).
  Proof.
    intros Eq Hs Ht. unfold start, start_h. rewrite Eq. destruct (set (fw (dj_costs st)) s f0); cbn [bind alike]; auto.
    destruct (set (bw (dj_costs st)) t f0); cbn [bind alike]; auto. split.
    - constructor; cbn [dj_ch dj_queue dj_costs dj_preds dj_visited dj_found dj_touched]; auto.
      rewrite heap_push_perm. constructor. symmetry. apply heap_push_perm.
    - cbn [dj_queue]. apply (push_ok 1); [apply (push_ok 0)|].
      + split; [constructor|]. intros i k x y _ Hx. destruct i; discriminate.
      + split; [exact Hs|]. exists 0%Q. split; [reflexivity|]. split; [lra|auto].
      + split; [exact Ht|]. exists 0%Q. split; [reflexivity|]. split; [lra|auto].
  Qed.
End Follow.

Lemma init_query_queue n st st0 : init_query n st = Ok st0 -> dj_queue st0 = [].
Proof.
  unfold init_query. intros E. apply bind_ok in E. destruct E as (s1 & _ & E). apply bind_ok in E. destruct E as (s2 & _ & E).
  now injection E as <-.
Qed.

(** every query with the heap is a query with some queue *)
Lemma heap_query g rc fuel st s t (R : Q -> Prop) eps :
  wf_graph g -> nonneg_metrics g -> s < node_count g -> t < node_count g ->
  (0 <= eps)%Q -> R 0%Q ->
  (forall q e ms w, R q -> edge_metrics g e = Ok ms -> dot_product (rc_alphas rc) ms = Fin w -> R (q + w)%Q) ->
  (forall a b, R a -> R b -> (a < b + TOL)%Q -> (a <= b + eps)%Q) ->
  exists pick, picks_min (inject_Z (Z.of_nat (budget g fuel)) * eps) pick /\
    alike (fun x y => same (fst x) (fst y) /\ snd x = snd y)
      (compute_best_path pick fuel st g rc s t) (compute_best_path_h fuel st g rc s t).
Proof.
  intros Hwf Hnn Hs Ht He R0 Rs Rc. set (delta := (inject_Z (Z.of_nat (budget g fuel)) * eps)%Q).
  assert (Hd : (0 <= delta)%Q) by (apply err_nonneg; auto).
  assert (Hx : picks_min delta (follow delta (fun _ => 0))) by now apply follow_picks.
  unfold compute_best_path, compute_best_path_h.
  destruct (existsb (fun a => fltb a f0) (rc_alphas rc)) eqn:Ex.
  { exists (follow delta (fun _ => 0)). split; [auto|]. cbn [alike fst snd]. split; [apply same_refl|reflexivity]. }
  assert (Ha : Forall not_negative (rc_alphas rc)).
  { apply Forall_forall. intros a Hin. apply not_lt_zero. destruct (fltb a f0) eqn:El; auto.
    assert (existsb (fun a => fltb a f0) (rc_alphas rc) = true) by (apply existsb_exists; eauto). congruence. }
  destruct (match rc_algo rc with ADijkstra => Ok false | ACHDijkstra => Ok true | AExplorator _ => Panic end) as [ch| | |];
    cbn [bind]; try (exists (follow delta (fun _ => 0)); split; [exact Hx|]; cbn [alike]; auto; fail).
  destruct (init_query (node_count g) (with_ch st ch)) as [st0| | |] eqn:E0;
    cbn [bind]; try (exists (follow delta (fun _ => 0)); split; [exact Hx|]; cbn [alike]; auto; fail).
  pose proof (start_alike g R eps He R0 Rc s t st0 (init_query_queue _ _ _ E0) Hs Ht) as Hst.
  destruct (start s t st0) as [st1| | |]; destruct (start_h s t st0) as [sh1| | |]; cbn [alike] in Hst; try contradiction;
    cbn [bind]; try (exists (follow delta (fun _ => 0)); split; [exact Hx|]; cbn [alike]; auto; fail).
  assert (Hb : budget g 0 = 2) by (unfold budget; lia).
  destruct (search_alike g (rc_alphas rc) Hwf Hnn Ha R eps He Rs Rc fuel fuel 0 st1 sh1 None) as (f & Hf); [lia|now rewrite Hb|].
  fold delta in Hf. exists (follow delta f). split; [now apply follow_picks|].
  eapply alike_bind; [exact Hf|]. intros [x b] [y b'] [Hxy Hbb] _ _. cbn [fst snd] in *. subst b'.
  destruct b as [[m bb]|]; [|cbn [alike fst snd]; auto]. rewrite (sm_preds _ _ Hxy).
  destruct (trace g (fw (dj_preds y)) FWD fuel m); cbn [bind alike]; auto.
  destruct (trace g (bw (dj_preds y)) BWD fuel m); cbn [bind alike]; auto.
  destruct (node_id g s); cbn [bind alike]; auto. destruct (node_id g t); cbn [bind alike]; auto.
Qed.

(** *** Histories: the same without costs *)
Section Plain.
  Variables (g : graph) (alphas : list f64).

  Lemma relax_edge_same enq d e v nc st sh : same st sh -> alike same (relax_edge enq d e v nc st) (relax_edge_h enq d e v nc sh).
  Proof.
    intros [S1 S2 S3 S4 S5 S6 S7]. unfold relax_edge, relax_edge_h. rewrite S3, S4, S1, S5, S6, S7.
    destruct (idx (get (dj_costs sh) d) v) as [old| | |] eqn:Eo; cbn [bind alike]; auto.
    destruct (fltb _ old) eqn:El; [|constructor; auto].
    destruct (set (get (dj_preds sh) d) v (Some e)) as [ps| | |]; cbn [bind alike]; auto.
    destruct (set (get (dj_costs sh) d) v _) as [cs| | |]; cbn [bind alike]; auto.
    destruct enq; constructor; cbn [dj_ch dj_queue dj_costs dj_preds dj_visited dj_found dj_touched]; auto.
    rewrite heap_push_perm. now constructor.
  Qed.
  Lemma relax_same enq c es : forall st sh, same st sh -> alike same (relax g alphas enq c es st) (relax_h g alphas enq c es sh).
  Proof.
    induction es as [|e es IH]; intros st sh H; cbn [relax relax_h]; [exact H|].
    destruct (dst_idx g (cn_dir c) e) as [v| | |] eqn:Ev; cbn [bind alike]; auto.
    rewrite (sm_ch _ _ H). destruct (if dj_ch sh then _ else _) as [down| | |]; cbn [bind alike]; auto. destruct down; [exact H|].
    destruct (edge_metrics g e) as [ms| | |] eqn:Em; cbn [bind alike]; auto.
    eapply alike_bind; [now apply relax_edge_same|]. intros st1 sh1 H1 _ _. now apply IH.
  Qed.
  Lemma iteration_same st sh best c : same st sh ->
    alike (fun x y => same (fst x) (fst y) /\ snd x = snd y) (iteration g alphas st best c) (iteration_h g alphas sh best c).
  Proof.
    intros [S1 S2 S3 S4 S5 S6 S7]. unfold iteration, iteration_h.
    unfold has_improved. rewrite S3. destruct (idx (get (dj_costs sh) (cn_dir c)) (cn_idx c)) as [x| | |]; cbn [bind alike]; auto.
    destruct (negb (fleb (cn_cost c) x)); [cbn [fst snd]; split; [constructor; auto|reflexivity]|].
    assert (Hvis : alike same (visit st c) (visit sh c)).
    { unfold visit. rewrite S1, S5. destruct (dj_ch sh) eqn:Ech; [constructor; auto; congruence|].
      destruct (set _ _ _) as [v| | |]; cbn [bind alike]; auto.
      constructor; cbn [with_visited dj_ch dj_queue dj_costs dj_preds dj_visited dj_found dj_touched]; auto; congruence. }
    eapply alike_bind; [exact Hvis|]. intros st1 sh1 [T1 T2 T3 T4 T5 T6 T7] _ _.
    assert (Hmeet : meet st1 best c = meet sh1 best c).
    { unfold meet, is_meeting, total_cost. now rewrite T1, T3, T5. }
    rewrite Hmeet. destruct (meet sh1 best c) as [[best1 over]| | |]; cbn [bind alike]; auto.
    destruct over.
    { cbn [fst snd]. split; [|reflexivity].
      constructor; cbn [with_found dj_ch dj_queue dj_costs dj_preds dj_visited dj_found dj_touched]; auto. now rewrite T6. }
    destruct (starting_from g (cn_dir c) (cn_idx c)) as [es| | |] eqn:Es; cbn [bind alike]; auto. rewrite T1.
    eapply alike_bind; [apply relax_same; constructor; auto|]. intros st2 sh2 A _ _. cbn [alike fst snd]. auto.
  Qed.
  Lemma search_same fuel : forall k st sh best, same st sh ->
    exists f : nat -> nat, alike (fun x y => same (fst x) (fst y) /\ snd x = snd y)
                (search (fun k _ => f k) g alphas fuel k st best) (search_h g alphas fuel sh best).
  Proof.
    induction fuel as [|fu IH]; intros k st sh best H.
    - exists (fun _ => 0). cbn [search search_h]. destruct (heap_pop rev_le (dj_queue sh)) as [[c q]|] eqn:Ep.
      + destruct (dj_queue st) as [|c0 q0] eqn:Eq; [|exact I]. pose proof (sm_que _ _ H) as Hq. rewrite Eq in Hq.
        apply Permutation_nil in Hq. rewrite Hq in Ep. discriminate.
      + apply heap_pop_none in Ep. pose proof (sm_que _ _ H) as Hq. rewrite Ep in Hq. apply Permutation_sym, Permutation_nil in Hq. rewrite Hq.
        cbn [alike fst snd]. auto.
    - cbn [search_h]. destruct (heap_pop rev_le (dj_queue sh)) as [[c q]|] eqn:Ep.
      2: { exists (fun _ => 0). cbn [search]. apply heap_pop_none in Ep. pose proof (sm_que _ _ H) as Hq. rewrite Ep in Hq.
           apply Permutation_sym, Permutation_nil in Hq. rewrite Hq. cbn [alike fst snd]. auto. }
      destruct (heap_pop_perm costnode rev_le _ _ _ Ep) as [Hp _]. pose proof (sm_que _ _ H) as Hperm.
      assert (Hin : In c (dj_queue st)) by (rewrite Hperm, Hp; now left).
      apply In_nth_error in Hin. destruct Hin as [i Hi].
      set (st0 := with_queue st (remove_nth i (dj_queue st))). set (sh0 := with_queue sh q).
      assert (H0 : same st0 sh0).
      { destruct H as [A1 A2 A3 A4 A5 A6 A7].
        constructor; cbn [with_queue st0 sh0 dj_ch dj_queue dj_costs dj_preds dj_visited dj_found dj_touched]; auto.
        apply (remove_perm _ i c); auto. now rewrite Hperm. }
      assert (Hst : forall f, f k = i -> search (fun k _ => f k) g alphas (S fu) k st best =
                 if has_found st0 then Ok (st0, best) else do r <- iteration g alphas st0 best c; search (fun k _ => f k) g alphas fu (S k) (fst r) (snd r)).
      { intros f Hf. cbn [search]. rewrite Hf. destruct (dj_queue st) as [|c0 q0] eqn:Eq; [destruct i; discriminate|].
        unfold idx. rewrite Hi. reflexivity. }
      destruct (has_found sh0) eqn:Ef.
      { exists (fun _ => i). rewrite Hst by reflexivity.
        assert (Ef' : has_found st0 = true). { unfold has_found in *. cbn [st0 sh0 with_queue dj_found] in *. now rewrite (sm_found _ _ H). }
        rewrite Ef'. cbn [alike fst snd]. split; [apply H0|reflexivity]. }
      assert (Ef' : has_found st0 = false). { unfold has_found in *. cbn [st0 sh0 with_queue dj_found] in *. now rewrite (sm_found _ _ H). }
      pose proof (iteration_same _ _ best c H0) as Hit.
      destruct (iteration g alphas st0 best c) as [[st1 b1]| | |] eqn:E1; destruct (iteration_h g alphas sh0 best c) as [[sh1 b1']| | |] eqn:E2;
        cbn [alike fst snd] in Hit; try contradiction;
        try (exists (fun _ => i); rewrite Hst by reflexivity; rewrite Ef'; try rewrite E1; cbn [bind alike]; auto; fail).
      destruct Hit as [Hit <-]. cbn [bind fst snd].
      destruct (IH (S k) st1 sh1 b1 Hit) as (f & Hf).
      exists (fun k' => if k' =? k then i else f k'). rewrite Hst by now rewrite Nat.eqb_refl. rewrite Ef'. cbn [bind fst snd].
      rewrite (search_ext g alphas _ (fun k _ => f k)); [exact Hf|].
      intros k' q' Hk'. destruct (Nat.eqb_spec k' k); [lia|reflexivity].
  Qed.
End Plain.

Lemma init_dir_queue n d st q : init_dir n d (with_queue st q) = do x <- init_dir n d st; Ok (with_queue x q).
Proof.
  unfold init_dir. cbn [with_queue dj_ch dj_queue dj_costs dj_preds dj_visited dj_found dj_touched].
  match goal with |- context [bind ?x _] => destruct x; reflexivity end.
Qed.
Lemma init_query_queue_free n st q : init_query n (with_queue st q) = init_query n st.
Proof.
  unfold init_query. rewrite init_dir_queue. destruct (init_dir n FWD st) as [st1| | |]; cbn [bind]; auto.
  rewrite init_dir_queue. destruct (init_dir n BWD st1); reflexivity.
Qed.
Lemma init_query_same n st sh ch : same st sh -> init_query n (with_ch st ch) = init_query n (with_ch sh ch).
Proof.
  intros [S1 S2 S3 S4 S5 S6 S7]. rewrite <- (init_query_queue_free n (with_ch st ch) (dj_queue sh)).
  unfold with_queue, with_ch. cbn [dj_ch dj_queue dj_costs dj_preds dj_visited dj_found dj_touched]. now rewrite S3, S4, S5, S6, S7.
Qed.

Lemma query_same g rc fuel st sh s t : same st sh ->
  exists pick, alike (fun x y => same (fst x) (fst y) /\ snd x = snd y)
      (compute_best_path pick fuel st g rc s t) (compute_best_path_h fuel sh g rc s t).
Proof.
  intros H. unfold compute_best_path, compute_best_path_h.
  destruct (existsb (fun a => fltb a f0) (rc_alphas rc)) eqn:Ex.
  { exists exact_pick. cbn [alike fst snd]. split; [auto|reflexivity]. }
  destruct (match rc_algo rc with ADijkstra => Ok false | ACHDijkstra => Ok true | AExplorator _ => Panic end) as [ch| | |];
    cbn [bind]; try (exists exact_pick; cbn [alike]; auto; fail).
  rewrite (init_query_same _ _ _ ch H).
  destruct (init_query (node_count g) (with_ch sh ch)) as [st0| | |] eqn:E0;
    cbn [bind]; try (exists exact_pick; cbn [alike]; auto; fail).
  assert (Hst : alike same (start s t st0) (start_h s t st0)).
  { unfold start, start_h. destruct (set (fw (dj_costs st0)) s f0); cbn [bind alike]; auto.
    destruct (set (bw (dj_costs st0)) t f0); cbn [bind alike]; auto.
    constructor; cbn [dj_ch dj_queue dj_costs dj_preds dj_visited dj_found dj_touched]; auto.
    rewrite heap_push_perm. constructor. symmetry. apply heap_push_perm. }
  destruct (start s t st0) as [st1| | |]; destruct (start_h s t st0) as [sh1| | |]; cbn [alike] in Hst; try contradiction;
    cbn [bind]; try (exists exact_pick; cbn [alike]; auto; fail).
  destruct (search_same g (rc_alphas rc) fuel 0 st1 sh1 None Hst) as (f & Hf).
  exists (fun k _ => f k).
  eapply alike_bind; [exact Hf|]. intros [x b] [y b'] [Hxy Hbb] _ _. cbn [fst snd] in *. subst b'.
  destruct b as [[m bb]|]; [|cbn [alike fst snd]; auto]. rewrite (sm_preds _ _ Hxy).
  destruct (trace g (fw (dj_preds y)) FWD fuel m); cbn [bind alike]; auto.
  destruct (trace g (bw (dj_preds y)) BWD fuel m); cbn [bind alike]; auto.
  destruct (node_id g s); cbn [bind alike]; auto. destruct (node_id g t); cbn [bind alike]; auto.
Qed.

Lemma history_same sh : history_h sh -> exists st, history st /\ same st sh.
Proof.
  induction 1 as [|fuel sh g rc s t sh' r Hh (st & Hst & Hs) E].
  - exists dijkstra_new. split; [constructor|apply same_refl].
  - destruct (query_same g rc fuel st sh s t Hs) as (pick & Ha). rewrite E in Ha.
    destruct (compute_best_path pick fuel st g rc s t) as [[st' r']| | |] eqn:E'; cbn [alike] in Ha; try contradiction.
    exists st'. split; [exact (history_query _ _ _ _ _ _ _ _ _ Hst E')|apply Ha].
Qed.

Lemma heap_object fuel st sh g rc s t : same st sh -> answer (compute_best_path_h fuel st g rc s t) = answer (compute_best_path_h fuel sh g rc s t).
Proof.
  intros H. unfold compute_best_path_h. destruct (existsb (fun a => fltb a f0) (rc_alphas rc)); [reflexivity|].
  destruct (match rc_algo rc with ADijkstra => Ok false | ACHDijkstra => Ok true | AExplorator _ => Panic end) as [ch| | |]; auto.
  cbn [bind]. now rewrite (init_query_same _ _ _ ch H).
Qed.
Lemma alike_answer x y : alike (fun (x y : dijkstra * option path) => same (fst x) (fst y) /\ snd x = snd y) x y -> answer x = answer y.
Proof. destruct x as [[a b]| | |], y as [[a' b']| | |]; cbn [alike answer fst snd]; try contradiction; intuition congruence. Qed.

(** the heap answers like some queue that errs by up to [n * eps] *)
Lemma heap_run g rc fuel sh s t (R : Q -> Prop) eps :
  wf_graph g -> nonneg_metrics g -> history_h sh -> s < node_count g -> t < node_count g ->
  (0 <= eps)%Q -> R 0%Q ->
  (forall q e ms w, R q -> edge_metrics g e = Ok ms -> dot_product (rc_alphas rc) ms = Fin w -> R (q + w)%Q) ->
  (forall a b, R a -> R b -> (a < b + TOL)%Q -> (a <= b + eps)%Q) ->
  exists st pick, history st /\ capacity st = capacity sh /\
    picks_min (inject_Z (Z.of_nat (2 + (edge_count g FWD + 2) * fuel)) * eps) pick /\
    answer (compute_best_path pick fuel st g rc s t) = answer (compute_best_path_h fuel sh g rc s t).
Proof.
  intros Hwf Hnn Hh Hs Ht He R0 Rs Rc. destruct (history_same sh Hh) as (st & Hst & Hsame).
  destruct (heap_query g rc fuel st s t R eps Hwf Hnn Hs Ht He R0 Rs Rc) as (pick & Hp & Ha).
  exists st, pick. split; [auto|]. split; [unfold capacity; now rewrite (sm_costs _ _ Hsame)|]. split; [exact Hp|].
  rewrite (alike_answer _ _ Ha). now apply heap_object.
Qed.

(** with errors up to the accuracy *)
Lemma heap_run_near g rc fuel sh s t :
  wf_graph g -> nonneg_metrics g -> history_h sh -> s < node_count g -> t < node_count g ->
  exists st pick, history st /\ capacity st = capacity sh /\ picks_min (heap_error (edge_count g FWD) fuel) pick /\
    answer (compute_best_path pick fuel st g rc s t) = answer (compute_best_path_h fuel sh g rc s t).
Proof.
  intros Hwf Hnn Hh Hs Ht. apply (heap_run g rc fuel sh s t (fun _ => True) accuracy); auto.
  - unfold accuracy. lra.
  - intros a b _ _ H. unfold TOL, accuracy in *. lra.
Qed.
(** without errors *)
Lemma heap_run_exact g rc fuel sh s t u :
  wf_graph g -> nonneg_metrics g -> history_h sh -> s < node_count g -> t < node_count g ->
  (accuracy <= u)%Q -> multiples_of u g (rc_alphas rc) ->
  exists st pick, history st /\ capacity st = capacity sh /\ picks_min 0 pick /\
    answer (compute_best_path pick fuel st g rc s t) = answer (compute_best_path_h fuel sh g rc s t).
Proof.
  intros Hwf Hnn Hh Hs Ht Hu Hm.
  destruct (heap_run g rc fuel sh s t (fun q => exists z, (q == inject_Z z * u)%Q) 0%Q) as (st & pick & A & B & [C D] & E); auto; try lra.
  - exists 0%Z. ring.
  - intros q e ms w (z & Hz) Em Hd. destruct (dot_fin _ _ _ Hd) as (w' & Hw & Hww). destruct (Hm e ms w' Em Hw) as (y & Hy).
    exists (z + y)%Z. rewrite Hz, Hww, Hy, inject_Z_plus. ring.
  - intros a b (y & Ha) (z & Hb) H. destruct (Z.le_gt_cases y z) as [Hle|Hgt].
    + rewrite Ha, Hb. rewrite Zle_Qle in Hle. unfold accuracy in Hu. assert (inject_Z y * u <= inject_Z z * u)%Q by (apply Qmult_le_compat_r; [auto|lra]). lra.
    + exfalso. rewrite Ha, Hb in H. assert (Hz1 : (z + 1 <= y)%Z) by lia. rewrite Zle_Qle, inject_Z_plus in Hz1. change (inject_Z 1) with 1%Q in Hz1.
      unfold accuracy, TOL in *. assert ((inject_Z z + 1) * u <= inject_Z y * u)%Q by (apply Qmult_le_compat_r; [auto|lra]). lra.
  - exists st, pick. split; [auto|]. split; [auto|]. split; [|auto]. split; [auto|].
    intros k q c a x b F G I J. specialize (D k q c a x b F G I J). lra.
Qed.

(** *** Used objects *)
Lemma relax_edge_h_visited v enq d e x nc st :
  relax_edge_h enq d e x nc (with_visited st v) = rmapv (fun s => with_visited s v) (relax_edge_h enq d e x nc st).
Proof.
  unfold relax_edge_h. cbn [with_visited dj_costs]. destruct (idx (get (dj_costs st) d) x); cbn [bind rmapv]; auto.
  destruct (fltb nc a); cbn [rmapv]; auto. cbn [with_visited dj_preds dj_costs dj_ch dj_queue dj_found dj_touched].
  destruct (set (get (dj_preds st) d) x (Some e)); cbn [bind rmapv]; auto.
  destruct (set (get (dj_costs st) d) x nc); cbn [bind rmapv]; auto.
Qed.
Lemma relax_h_visited v g alphas enq c es : forall st,
  relax_h g alphas enq c es (with_visited st v) = rmapv (fun s => with_visited s v) (relax_h g alphas enq c es st).
Proof.
  induction es as [|e es IH]; intros st; cbn [relax_h]; [reflexivity|].
  destruct (dst_idx g (cn_dir c) e); cbn [bind rmapv]; auto. cbn [with_visited dj_ch].
  destruct (if dj_ch st then _ else Ok false) as [down| | |]; cbn [bind rmapv]; auto. destruct down; [reflexivity|].
  destruct (edge_metrics g e); cbn [bind rmapv]; auto. rewrite relax_edge_h_visited.
  destruct (relax_edge_h enq (cn_dir c) e a _ st) as [st1| | |]; cbn [bind rmapv]; auto.
Qed.
Lemma relax_h_ch g alphas enq c es : forall st st', relax_h g alphas enq c es st = Ok st' -> dj_ch st' = dj_ch st.
Proof.
  induction es as [|e es IH]; intros st st' E; cbn [relax_h] in E; [now injection E as <-|].
  apply bind_ok in E. destruct E as (v & _ & E). apply bind_ok in E. destruct E as (down & _ & E).
  destruct down; [now injection E as <-|].
  apply bind_ok in E. destruct E as (ms & _ & E). apply bind_ok in E. destruct E as (st1 & E1 & E).
  rewrite (IH _ _ E). eapply relax_edge_h_ch; eauto.
Qed.
Lemma iteration_h_visited v g alphas st best c : dj_ch st = true ->
  iteration_h g alphas (with_visited st v) best c = rmapv (revisit v) (iteration_h g alphas st best c) /\
  (forall x, iteration_h g alphas st best c = Ok x -> dj_ch (fst x) = true).
Proof.
  intros Hch. unfold iteration_h, has_improved. cbn [with_visited dj_costs].
  destruct (idx (get (dj_costs st) (cn_dir c)) (cn_idx c)) as [x| | |]; cbn [bind rmapv]; try (split; [auto|discriminate]).
  destruct (negb (fleb (cn_cost c) x)); [split; [auto|]; intros y E; injection E as <-; auto|].
  unfold visit. cbn [with_visited dj_ch]. rewrite Hch. cbn [bind].
  assert (Hm : meet (with_visited st v) best c = meet st best c).
  { unfold meet, is_meeting, total_cost. cbn [with_visited dj_ch dj_costs]. rewrite Hch. reflexivity. }
  rewrite Hm. destruct (meet st best c) as [[b1 over]| | |]; cbn [bind rmapv]; try (split; [auto|discriminate]).
  destruct over; [split; [reflexivity|intros y E; injection E as <-; auto]|].
  destruct (starting_from g (cn_dir c) (cn_idx c)); cbn [bind rmapv]; try (split; [auto|discriminate]).
  cbn [with_visited dj_ch]. rewrite Hch. rewrite relax_h_visited.
  destruct (relax_h g alphas _ c a st) as [st2| | |] eqn:E2; cbn [bind rmapv]; try (split; [auto|discriminate]).
  split; [reflexivity|]. intros y E. injection E as <-. cbn [fst]. rewrite (relax_h_ch _ _ _ _ _ _ _ E2). auto.
Qed.
Lemma search_h_visited v g alphas fuel : forall st best, dj_ch st = true ->
  search_h g alphas fuel (with_visited st v) best = rmapv (revisit v) (search_h g alphas fuel st best).
Proof.
  induction fuel as [|fuel IH]; intros st best Hch; cbn [search_h]; cbn [with_visited dj_queue].
  - destruct (heap_pop rev_le (dj_queue st)) as [[c q]|]; reflexivity.
  - destruct (heap_pop rev_le (dj_queue st)) as [[c q']|]; [|reflexivity].
    change (with_queue (with_visited st v) q') with (with_visited (with_queue st q') v).
    change (has_found (with_visited (with_queue st q') v)) with (has_found (with_queue st q')).
    destruct (has_found (with_queue st q')); [reflexivity|].
    destruct (iteration_h_visited v g alphas (with_queue st q') best c Hch) as [E Hc]. rewrite E.
    destruct (iteration_h g alphas (with_queue st q') best c) as [[st1 b1]| | |] eqn:E1; cbn [bind rmapv revisit fst snd]; auto.
    apply IH. apply (Hc _ eq_refl).
Qed.

Lemma heap_reuse fuel sh g rc s t :
  history_h sh -> capacity sh <= node_count g -> node_count g <> 2 ->
  answer (compute_best_path_h fuel sh g rc s t) = answer (compute_best_path_h fuel dijkstra_new g rc s t).
Proof.
  intros Hh Hcap Hn. destruct (history_same sh Hh) as (st & Hst & Hsame).
  assert (Hcap' : capacity st <= node_count g) by (unfold capacity; now rewrite (sm_costs _ _ Hsame)).
  rewrite <- (heap_object fuel st sh g rc s t Hsame). clear sh Hh Hcap Hsame.
  unfold compute_best_path_h. destruct (existsb (fun a => fltb a f0) (rc_alphas rc)); [reflexivity|].
  destruct (match rc_algo rc with ADijkstra => Ok false | ACHDijkstra => Ok true | AExplorator _ => Panic end) as [ch| | |] eqn:Ech;
    cbn [bind answer]; auto.
  pose proof (history_clean _ Hst) as Hc.
  destruct (init_query_total (capacity st) (node_count g) ch st Hc) as (st0 & E0).
  { intros d v Hv. pose proof (c_touch _ _ Hc d v Hv). unfold new_size. destruct (Nat.eqb_spec 2 (node_count g)); lia. }
  destruct (init_query_total 0 (node_count g) ch dijkstra_new clean_new) as (st1 & E1).
  { intros [] v []. }
  rewrite E0, E1. cbn [bind].
  rewrite (init_query_spec _ _ _ _ _ Hc E0), (init_query_spec _ _ _ _ _ clean_new E1).
  assert (Hsz : forall L, new_size L (node_count g) = node_count g) by (intros; unfold new_size; destruct (Nat.eqb_spec 2 (node_count g)); congruence).
  rewrite !Hsz. destruct ch; cbn [new_visited]; [|auto].
  set (b0 := blank true (node_count g) (dj_visited dijkstra_new)).
  change (blank true (node_count g) (dj_visited st)) with (with_visited b0 (dj_visited st)).
  set (v := dj_visited st). unfold start_h. cbn [with_visited dj_costs].
  destruct (set (fw (dj_costs b0)) s f0); cbn [bind answer]; auto.
  destruct (set (bw (dj_costs b0)) t f0); cbn [bind answer]; auto. cbn [with_visited dj_ch dj_queue dj_preds dj_visited dj_found dj_touched].
  match goal with |- context [search_h g (rc_alphas rc) fuel ?x None] =>
    match x with context [dj_visited b0] => set (st2 := x) end end.
  match goal with |- context [search_h g (rc_alphas rc) fuel ?x None] =>
    match x with context [v] => change x with (with_visited st2 v) end end.
  rewrite search_h_visited by reflexivity.
  destruct (search_h g (rc_alphas rc) fuel st2 None) as [[st3 b3]| | |]; cbn [bind rmapv revisit fst snd answer]; auto.
  destruct b3 as [[m b]|]; auto. cbn [with_visited dj_preds].
  destruct (trace g (fw (dj_preds st3)) FWD fuel m); cbn [bind answer]; auto.
  destruct (trace g (bw (dj_preds st3)) BWD fuel m); cbn [bind answer]; auto.
  destruct (node_id g s); cbn [bind answer]; auto. destruct (node_id g t); cbn [bind answer snd]; auto.
Qed.
