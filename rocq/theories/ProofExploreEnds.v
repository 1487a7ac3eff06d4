(** Lemmas about the end of an exploration *)
From Coq Require Import List Bool Arith Lia QArith.
From Verif Require Import Base F64 Lib ModelApprox ModelUnits ModelConfig ModelGraph ModelBuild ModelDijkstra ModelExplorator
  Spec SpecRouting SpecPaths SpecExplorator SpecCells SpecExploreEnds AbsSearch ProofDijkstra ProofPaths ProofExplorator PropsGraph PropsRouting
  ProofCells ProofCells3.
Import ListNotations.
Open Scope nat_scope.

(** *** Finitely many lists *)
Fixpoint lists_of (m n : nat) : list (list nat) :=
  match n with
  | O => [[]]
  | S k => [] :: flat_map (fun l => map (fun e => e :: l) (seq 0 m)) (lists_of m k)
  end.
Lemma lists_of_in m n : forall l, length l <= n -> (forall e, In e l -> e < m) -> In l (lists_of m n).
Proof.
  induction n as [|n IH]; intros [|e l] Hl He; cbn [length] in Hl; [now left|lia|now left|].
  right. apply in_flat_map. exists l. split.
  - apply IH; [lia|]. intros x Hx. apply He. now right.
  - apply in_map_iff. exists e. split; auto. apply in_seq. specialize (He e (or_introl eq_refl)). lia.
Qed.

Lemma f64_dec (x y : f64) : {x = y} + {x <> y}.
Proof. decide equality. decide equality; [apply Pos.eq_dec|apply Z.eq_dec]. Qed.
Definition point_dec : forall x y : list f64, {x = y} + {x <> y} := list_eq_dec f64_dec.

(** *** Folds *)
Lemma bind_ends {A B} (r : res A) (k : A -> res B) : r <> Diverge -> (forall x, r = Ok x -> k x <> Diverge) -> bind r k <> Diverge.
Proof. destruct r; cbn; try discriminate; intros H G; [now apply G|congruence]. Qed.
Lemma expect_ends {A} (o : option A) : expect o <> Diverge.
Proof. destruct o; discriminate. Qed.
Lemma idx_ends {A} (l : list A) i : idx l i <> Diverge.
Proof. unfold idx. destruct (nth_error l i); discriminate. Qed.
Lemma set_ends {A} (l : list A) i x : set l i x <> Diverge.
Proof. unfold set. destruct (i <? length l); discriminate. Qed.
Lemma mapM_ends {A B} (f : A -> res B) l : (forall a, In a l -> f a <> Diverge) -> mapM f l <> Diverge.
Proof.
  induction l as [|a l IH]; intros H; [discriminate|]. cbn [mapM]. apply bind_ends; [apply H; now left|]. intros y _.
  apply bind_ends; [apply IH; intros b Hb; apply H; now right|]. discriminate.
Qed.
Lemma foldM_ends {A S} (f : S -> A -> res S) (Inv : S -> Prop) l : (forall s a, Inv s -> f s a <> Diverge) ->
  (forall s a s', Inv s -> f s a = Ok s' -> Inv s') -> forall s, Inv s -> foldM f l s <> Diverge.
Proof.
  intros H1 H2. induction l as [|a l IH]; intros s Hs; [discriminate|]. cbn [foldM]. apply bind_ends; [now apply H1|].
  intros s' E. apply IH. eauto.
Qed.
Lemma foldM_keeps {A S} (f : S -> A -> res S) (Inv : S -> Prop) l : (forall s a s', Inv s -> f s a = Ok s' -> Inv s') ->
  forall s s', Inv s -> foldM f l s = Ok s' -> Inv s'.
Proof.
  intros H. induction l as [|a l IH]; intros s s' Hs E; cbn [foldM] in E; [now injection E as <-|].
  apply bind_ok in E. destruct E as (s1 & E1 & E). eauto.
Qed.

Section Ends.
  Variable pick : nat -> list costnode -> nat.
  Variable fuel : nat.
  Variable T : Type.
  Variable tri_add : T -> list f64 -> option (T * nat).
  Variable tri_cells : T -> list (nat * list nat).
  Variable solve : list (list f64) -> list f64 -> option (list f64).
  Variable g : graph.
  Variable q : xquery.
  (** the states of the Dijkstra object *)
  Variable J : dijkstra -> Prop.
  Hypothesis best_ends : forall st al, J st -> xbest pick fuel g q st al <> Diverge.
  Hypothesis best_keeps : forall st al st' r, J st -> xbest pick fuel g q st al = Ok (st', r) -> J st'.

  (** coordinates of the points *)
  Definition point (cs : list f64) : list f64 := map snd (filter fst (combine (xq_imc q) cs)).
  Definition pointed (pool : list (list f64)) (p : path) : Prop := forall cs, p_costs p = Some cs -> In (point cs) pool.
  Variable pool : list (list f64).
  Hypothesis best_pool : forall st al st' p, J st -> xbest pick fuel g q st al = Ok (st', Some p) -> pointed pool p.

  Variable pts : T -> list (list f64).
  Hypothesis pts_add : forall t c t' id, tri_add t c = Some (t', id) -> forall x, In x (pts t') <-> x = c \/ In x (pts t).
  Hypothesis pts_same : forall t c t' id, tri_add t c = Some (t', id) -> In c (pts t) ->
    forall k vs, In (k, vs) (tri_cells t') -> exists vs', In (k, vs') (tri_cells t).

  Lemma costs_end p : path_costs p <> Diverge.
  Proof. apply expect_ends. Qed.
  Lemma cell_ends found vs : cell_from found vs <> Diverge.
  Proof. apply mapM_ends. intros id _. apply expect_ends. Qed.
  Lemma misses_ends tol cell : misses_tolerance tol cell <> Diverge.
  Proof.
    apply bind_ends; [apply mapM_ends; intros p _; apply costs_end|]. intros cs _.
    apply bind_ends; [|discriminate]. apply mapM_ends. intros it _. apply bind_ends; [|discriminate].
    apply mapM_ends. intros c _. apply idx_ends.
  Qed.
  Lemma system_ends cell : create_linear_system q cell <> Diverge.
  Proof.
    destruct cell as [|v0 vs]; [discriminate|]. cbn [create_linear_system].
    apply bind_ends; [apply costs_end|]. intros c0 _. apply bind_ends; [apply mapM_ends; intros p _; apply costs_end|]. intros cs _.
    apply bind_ends; [apply mapM_ends; intros ib _; apply set_ends|]. intros rows _.
    destruct (xq_dim q <? _); [discriminate|]. destruct (xq_dim q - _) as [|[|]]; discriminate.
  Qed.

  Lemma explore_cell_ends found x c : J (fst (fst x)) -> explore_cell pick fuel solve g q found x c <> Diverge.
  Proof.
    destruct x as [[st vis] new]. cbn [fst]. intros HJ. unfold explore_cell. destruct (existsb _ vis); [discriminate|].
    apply bind_ends; [apply cell_ends|]. intros cell _. apply bind_ends; [apply misses_ends|]. intros miss _.
    destruct miss; [discriminate|]. apply bind_ends; [apply system_ends|]. intros [[rows b]|] _; [|discriminate].
    destruct (solve rows b) as [al|]; [|discriminate]. apply bind_ends; [now apply best_ends|]. intros [st1 [p|]] _; cbn [fst snd]; [|discriminate].
    apply bind_ends; [apply costs_end|]. intros cs _. apply bind_ends; [apply idx_ends|]. intros v0 _.
    apply bind_ends; [apply costs_end|]. intros c0 _. destruct (_ && _); discriminate.
  Qed.
  (** a cell not visited is visited, one visited changes nothing *)
  Lemma explore_cell_steps found st vis new c st' vis' new' : J st -> (forall p, In p new -> pointed pool p) ->
    explore_cell pick fuel solve g q found (st, vis, new) c = Ok (st', vis', new') ->
    J st' /\ (forall p, In p new' -> pointed pool p) /\ incl vis vis' /\ In (fst c) vis' /\ (In (fst c) vis -> new' = new).
  Proof.
    intros HJ Hp E. unfold explore_cell in E.
    destruct (existsb (fun k => k =? fst c) vis) eqn:Ev.
    { injection E as <- <- <-. apply existsb_exists in Ev. destruct Ev as (k & Hk & Ek). apply Nat.eqb_eq in Ek. subst k. repeat split; auto. apply incl_refl. }
    assert (Hn : ~ In (fst c) vis).
    { intros H. assert (existsb (fun k => k =? fst c) vis = true) by (apply existsb_exists; exists (fst c); split; [auto|apply Nat.eqb_refl]). congruence. }
    assert (Hi : incl vis (fst c :: vis)) by (intros x Hx; now right).
    assert (Hc : In (fst c) (fst c :: vis)) by now left.
    apply bind_ok in E. destruct E as (cell & Ec & E). apply bind_ok in E. destruct E as (miss & _ & E).
    destruct miss; [injection E as <- <- <-; repeat split; auto; tauto|].
    apply bind_ok in E. destruct E as ([[rows b]|] & _ & E); [|injection E as <- <- <-; repeat split; auto; tauto].
    destruct (solve rows b) as [al|]; [|injection E as <- <- <-; repeat split; auto; tauto].
    apply bind_ok in E. destruct E as ([st1 o] & Ex & E). cbn [fst snd] in E. pose proof (best_keeps _ _ _ _ HJ Ex) as HJ1.
    destruct o as [p|]; [|injection E as <- <- <-; repeat split; auto; tauto].
    pose proof (best_pool _ _ _ _ HJ Ex) as HP.
    apply bind_ok in E. destruct E as (cs & _ & E). apply bind_ok in E. destruct E as (v0 & _ & E).
    apply bind_ok in E. destruct E as (c0 & _ & E).
    destruct (_ && _); injection E as <- <- <-; repeat split; auto; try tauto.
    intros p' Hp'. apply in_app_or in Hp'. destruct Hp' as [Hp'|[<-|[]]]; auto.
  Qed.
  Lemma cells_steps found cells : forall st vis new st' vis' new', J st -> (forall p, In p new -> pointed pool p) ->
    foldM (explore_cell pick fuel solve g q found) cells (st, vis, new) = Ok (st', vis', new') ->
    J st' /\ (forall p, In p new' -> pointed pool p) /\ incl vis vis' /\ (forall c, In c cells -> In (fst c) vis') /\
    ((forall c, In c cells -> In (fst c) vis) -> new' = new).
  Proof.
    induction cells as [|c cells IH]; intros st vis new st' vis' new' HJ Hp E; cbn [foldM] in E.
    { injection E as <- <- <-. repeat split; auto; [apply incl_refl|intros c []]. }
    apply bind_ok in E. destruct E as ([[st1 vis1] new1] & E1 & E).
    destruct (explore_cell_steps _ _ _ _ _ _ _ _ HJ Hp E1) as (A1 & A2 & A3 & A4 & A5).
    destruct (IH _ _ _ _ _ _ A1 A2 E) as (B1 & B2 & B3 & B4 & B5). repeat split; auto.
    - intros x Hx. auto.
    - intros x [<-|Hx]; auto.
    - intros H. rewrite B5; [apply A5, H; now left|]. intros x Hx. apply A3, H. now right.
  Qed.

  (** *** Adding points *)
  Lemma update_path_ends s p : update_path T tri_add q s p <> Diverge.
  Proof.
    apply bind_ends; [apply costs_end|]. intros cs _. apply bind_ends.
    { apply bind_ends; [|discriminate]. apply mapM_ends. intros x _. apply bind_ends; [apply idx_ends|discriminate]. }
    intros cc _. apply bind_ends; [apply expect_ends|]. intros [tri id] _. discriminate.
  Qed.
  Lemma update_ends new s : update T tri_add q new s <> Diverge.
  Proof. apply (foldM_ends _ (fun _ => True)); auto. intros s' p _. apply update_path_ends. Qed.

  Lemma update_path_steps s p s' : pointed pool p -> update_path T tri_add q s p = Ok s' ->
    xs_visited T s' = xs_visited T s /\ xs_dirty T s' = xs_dirty T s /\
    exists c, In c pool /\ (forall x, In x (pts (xs_tri T s')) <-> x = c \/ In x (pts (xs_tri T s))) /\
      (In c (pts (xs_tri T s)) -> forall k vs, In (k, vs) (tri_cells (xs_tri T s')) -> exists vs', In (k, vs') (tri_cells (xs_tri T s))).
  Proof.
    intros Hp E. unfold update_path in E. apply bind_ok in E. destruct E as (cs & Ecs & E). apply path_costs_ok in Ecs.
    apply bind_ok in E. destruct E as (cc & Ecc & E). apply bind_ok in E. destruct E as ([tri id] & Ea & E).
    unfold expect in Ea. destruct (tri_add (xs_tri T s) cc) as [[tri' id']|] eqn:Et; [|discriminate]. injection Ea as -> ->.
    injection E as <-. cbn [xs_visited xs_dirty xs_tri]. split; [reflexivity|]. split; [reflexivity|]. exists cc.
    apply considered_eq in Ecc. subst cc. split; [now apply Hp|]. split; [exact (pts_add _ _ _ _ Et)|exact (pts_same _ _ _ _ Et)].
  Qed.

  Lemma update_steps new : forall s s', (forall p, In p new -> pointed pool p) -> foldM (update_path T tri_add q) new s = Ok s' ->
    xs_visited T s' = xs_visited T s /\ xs_dirty T s' = xs_dirty T s /\ incl (pts (xs_tri T s)) (pts (xs_tri T s')) /\
    ((exists c, In c pool /\ In c (pts (xs_tri T s')) /\ ~ In c (pts (xs_tri T s))) \/
     forall k vs, In (k, vs) (tri_cells (xs_tri T s')) -> exists vs', In (k, vs') (tri_cells (xs_tri T s))).
  Proof.
    induction new as [|p new IH]; intros s s' Hp E; cbn [foldM] in E.
    { injection E as <-. repeat split; auto; [apply incl_refl|]. right. eauto. }
    apply bind_ok in E. destruct E as (s1 & E1 & E).
    destruct (update_path_steps s p s1 (Hp p (or_introl eq_refl)) E1) as (A1 & A2 & c & A3 & A4 & A5).
    destruct (IH s1 s' (fun x Hx => Hp x (or_intror Hx)) E) as (B1 & B2 & B3 & B4).
    split; [congruence|]. split; [congruence|]. split; [intros x Hx; apply B3, A4; auto|].
    destruct (in_dec point_dec c (pts (xs_tri T s))) as [Hin|Hout].
    - destruct B4 as [(d & D1 & D2 & D3)|B4].
      + left. exists d. repeat split; auto. intros H. apply D3, A4. auto.
      + right. intros k vs Hk. destruct (B4 k vs Hk) as (vs' & Hk'). exact (A5 Hin k vs' Hk').
    - left. exists c. repeat split; auto. apply B3, A4. auto.
  Qed.

  (** *** Rounds *)
  Definition missing (t : T) : list (list f64) := filter (fun c => if in_dec point_dec c (pts t) then false else true) pool.
  Lemma missing_in t c : In c (missing t) <-> In c pool /\ ~ In c (pts t).
  Proof. unfold missing. rewrite filter_In. destruct (in_dec point_dec c (pts t)); intuition discriminate. Qed.
  Lemma filter_shorter {A} (f h : A -> bool) l : (forall x, In x l -> f x = true -> h x = true) ->
    length (filter f l) <= length (filter h l) /\ ((exists x, In x l /\ h x = true /\ f x = false) -> length (filter f l) < length (filter h l)).
  Proof.
    induction l as [|a l IH]; intros H; [split; [auto|intros (x & [] & _)]|].
    destruct (IH (fun x Hx => H x (or_intror Hx))) as [IH1 IH2]. specialize (H a (or_introl eq_refl)). cbn [filter].
    destruct (f a) eqn:Ef.
    - rewrite (H eq_refl). cbn [length]. split; [lia|]. intros (x & [->|Hx] & X & Y); [congruence|].
      specialize (IH2 (ex_intro _ x (conj Hx (conj X Y)))). lia.
    - destruct (h a) eqn:Eh; cbn [length]; (split; [lia|]); intros (x & [->|Hx] & X & Y); try congruence; try lia.
      apply IH2. eauto.
  Qed.
  Lemma missing_less t t' : incl (pts t) (pts t') -> length (missing t') <= length (missing t) /\
    ((exists c, In c pool /\ In c (pts t') /\ ~ In c (pts t)) -> length (missing t') < length (missing t)).
  Proof.
    intros Hi. destruct (filter_shorter (fun c => if in_dec point_dec c (pts t') then false else true)
      (fun c => if in_dec point_dec c (pts t) then false else true) pool) as [A B].
    - intros x _. destruct (in_dec point_dec x (pts t')), (in_dec point_dec x (pts t)); auto.
    - split; [exact A|]. intros (c & C1 & C2 & C3). apply B. exists c. split; auto.
      destruct (in_dec point_dec c (pts t')), (in_dec point_dec c (pts t)); auto; contradiction.
  Qed.

  (** the next round looks at nothing new *)
  Definition idle (s : xstate T) : Prop := forall c, In c (tri_cells (xs_tri T s)) -> In (fst c) (xs_visited T s).

  Lemma explore_ends rounds : forall st s, J st ->
    (idle s /\ 1 <= rounds \/ 2 * length (missing (xs_tri T s)) + 2 <= rounds) ->
    explore pick fuel T tri_add tri_cells solve g q rounds st s <> Diverge.
  Proof.
    induction rounds as [|k IH]; intros st s HJ Hb; cbn [explore]; destruct (xs_dirty T s) eqn:Ed; try discriminate.
    { destruct Hb as [[_ Hb]|Hb]; lia. }
    apply bind_ends.
    { apply (foldM_ends _ (fun x => J (fst (fst x)) /\ forall p, In p (snd x) -> pointed pool p)).
      - intros x c [Hx _]. now apply explore_cell_ends.
      - intros [[sa va] na] c [[sb vb] nb] [Ja Pa] E. destruct (explore_cell_steps _ _ _ _ _ _ _ _ Ja Pa E) as (X & Y & _). now split.
      - split; [exact HJ|]. intros p [].
    }
    intros [[st1 vis] new] E1. apply bind_ends; [apply update_ends|]. intros s1 E2.
    destruct (cells_steps _ _ _ _ _ _ _ _ HJ (fun p (H : In p []) => match H with end) E1) as (A1 & A2 & A3 & A4 & A5).
    unfold update in E2. cbn [xs_tri xs_found xs_tolerated xs_visited] in E2.
    destruct (update_steps _ _ _ A2 E2) as (B1 & B2 & B3 & B4). cbn [xs_visited xs_dirty xs_tri] in *.
    destruct Hb as [[Hi _]|Hb].
    - specialize (A5 Hi). subst new. destruct k; cbn [explore]; rewrite B2; discriminate.
    - apply IH; auto. destruct (missing_less _ _ B3) as [M1 M2]. destruct B4 as [B4|B4].
      + specialize (M2 B4). right. lia.
      + left. split; [|lia]. intros [kc vs] Hc. rewrite B1. cbn [fst]. destruct (B4 _ _ Hc) as (vs' & Hc'). exact (A4 _ Hc').
  Qed.
End Ends.
