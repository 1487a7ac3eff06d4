(** The bidirectional search of src/routing/dijkstra.rs:214-299 with arrays
    replaced by functions, together with ghost state used in proofs.  The
    simulation in ProofDijkstra.v connects it to the model. *)
From Coq Require Import List Bool Arith ZArith QArith Lqa Lia Permutation.
From Verif Require Import Base ModelGraph.
Import ListNotations.
Open Scope nat_scope.

Definition dir_eqb (a b : dir) : bool :=
  match a, b with FWD, FWD | BWD, BWD => true | _, _ => false end.
Lemma dir_eqb_spec a b : reflect (a = b) (dir_eqb a b).
Proof. destruct a, b; constructor; congruence. Qed.
Lemma opp_opp d : opp (opp d) = d.
Proof. now destruct d. Qed.
Lemma opp_neq d : opp d <> d.
Proof. destruct d; discriminate. Qed.

(** function update at one direction and index *)
Definition up2 {A} (f : dir -> nat -> A) (d : dir) (v : nat) (x : A) : dir -> nat -> A :=
  fun d' v' => if dir_eqb d d' && (v =? v') then x else f d' v'.
Definition up1 {A} (f : dir -> A) (d : dir) (x : A) : dir -> A :=
  fun d' => if dir_eqb d d' then x else f d'.
Lemma up2_eq {A} (f : dir -> nat -> A) d v x : up2 f d v x d v = x.
Proof. unfold up2. destruct (dir_eqb_spec d d); [|congruence]. now rewrite Nat.eqb_refl. Qed.
Lemma up2_neq {A} (f : dir -> nat -> A) d v x d' v' :
  (d <> d' \/ v <> v') -> up2 f d v x d' v' = f d' v'.
Proof.
  unfold up2. destruct (dir_eqb_spec d d'), (Nat.eqb_spec v v'); simpl; intros [H|H]; congruence.
Qed.
Lemma up2_cases {A} (f : dir -> nat -> A) d v x d' v' :
  (d = d' /\ v = v' /\ up2 f d v x d' v' = x) \/ ((d <> d' \/ v <> v') /\ up2 f d v x d' v' = f d' v').
Proof.
  unfold up2. destruct (dir_eqb_spec d d'), (Nat.eqb_spec v v'); simpl; auto.
Qed.

(** boolean comparison of rationals *)
Definition qltb (a b : Q) : bool := match (a ?= b)%Q with Lt => true | _ => false end.
Lemma qltb_lt a b : qltb a b = true <-> (a < b)%Q.
Proof. unfold qltb. rewrite Qlt_alt. destruct (a ?= b)%Q; split; congruence. Qed.
Lemma qltb_ge a b : qltb a b = false <-> (b <= a)%Q.
Proof.
  destruct (qltb a b) eqn:E.
  - apply qltb_lt in E. split; [discriminate|]. intros H. exfalso. apply (Qlt_not_le _ _ E H).
  - split; auto. intros _. apply Qnot_lt_le. intros H. apply qltb_lt in H. congruence.
Qed.

Definition entry : Type := nat * Q * dir.
Definition e_cost (e : entry) : Q := snd (fst e).

Record ast : Type := mkAst {
  lab : dir -> nat -> option Q;
  prd : dir -> nat -> option nat;
  vis : dir -> nat -> bool;
  flg : dir -> bool;
  que : list entry;
  bst : option (nat * Q);
  (* ghosts *)
  dn : dir -> nat -> bool;               (* expanded at its current label *)
  mx : Q;                                (* largest key of a valid pop *)
  hst : dir -> nat -> list nat;          (* walk that gave the current label *)
  log : list (dir * list nat);           (* all walks that ever gave a label *)
}.

Section Abs.
  Variable adj : dir -> nat -> list nat.
  Variable tgt : dir -> nat -> nat.
  Variable w : nat -> Q.
  Variable ch : bool.
  Variable root : dir -> nat.

  Definition init : ast :=
    {| lab := up2 (up2 (fun _ _ => None) FWD (root FWD) (Some 0%Q)) BWD (root BWD) (Some 0%Q);
       prd := fun _ _ => None;
       vis := fun _ _ => false;
       flg := fun _ => false;
       que := [(root BWD, 0%Q, BWD); (root FWD, 0%Q, FWD)];
       bst := None;
       dn := fun _ _ => false;
       mx := 0%Q;
       hst := fun _ _ => [];
       log := [] |}.

  (** relax edge [e] from [u] popped with key [c] *)
  Definition relax1 (d : dir) (u : nat) (c : Q) (st : ast) (e : nat) : ast :=
    let x := tgt d e in
    let nc := (c + w e)%Q in
    if match lab st d x with None => true | Some old => qltb nc old end then
      {| lab := up2 (lab st) d x (Some nc);
         prd := up2 (prd st) d x (Some e);
         vis := vis st;
         flg := flg st;
         que := if ch || match bst st with None => true | _ => false end
                then (x, nc, d) :: que st else que st;
         bst := bst st;
         dn := up2 (dn st) d x false;
         mx := mx st;
         hst := up2 (hst st) d x (hst st d u ++ [e]);
         log := (d, hst st d u ++ [e]) :: log st |}
    else st.

  Definition total (st : ast) (v : nat) : option Q :=
    match lab st FWD v, lab st BWD v with
    | Some a, Some b => Some (a + b)%Q
    | _, _ => None
    end.

  Definition meets (st : ast) (d : dir) (v : nat) : bool :=
    if ch then match lab st (opp d) v with Some _ => true | None => false end
    else vis st (opp d) v.

  (** the new best meeting node after popping (v, d) *)
  Definition new_best (st : ast) (d : dir) (v : nat) : option (nat * Q) :=
    match bst st with
    | Some (m, b) =>
        match total st v with
        | Some t => if qltb t b then Some (v, t) else Some (m, b)
        | None => Some (m, b)
        end
    | None => if meets st d v then match total st v with Some t => Some (v, t) | None => None end
              else None
    end.

  (** state after marking (v, d) as visited and updating the best meeting node *)
  Definition enter (st : ast) (v : nat) (c : Q) (d : dir) : ast :=
    {| lab := lab st; prd := prd st; vis := up2 (vis st) d v true; flg := flg st;
       que := que st; bst := new_best st d v; dn := up2 (dn st) d v true;
       mx := if qltb (mx st) c then c else mx st; hst := hst st; log := log st |}.

  Definition set_que (st : ast) (q : list entry) : ast :=
    {| lab := lab st; prd := prd st; vis := vis st; flg := flg st; que := q; bst := bst st;
       dn := dn st; mx := mx st; hst := hst st; log := log st |}.

  Definition cut (st : ast) (v : nat) (c : Q) (d : dir) : ast :=
    {| lab := lab st; prd := prd st; vis := up2 (vis st) d v true; flg := up1 (flg st) d true;
       que := que st; bst := bst st; dn := dn st;
       mx := if qltb (mx st) c then c else mx st; hst := hst st; log := log st |}.

  (** one iteration; [st] has the popped entry removed already *)
  Definition iter (st : ast) (v : nat) (c : Q) (d : dir) : ast :=
    if match lab st d v with None => false | Some l => qltb l c end then st
    else
      if match bst st with Some (_, b) => qltb b c | None => false end
      then cut st v c d
      else fold_left (relax1 d v c) (adj d v) (enter st v c d).

  (** walks in the graph searched in direction [d] *)
  Inductive walk (d : dir) : nat -> list nat -> Prop :=
  | walk_nil : walk d (root d) []
  | walk_step u l e : walk d u l -> In e (adj d u) -> walk d (tgt d e) (l ++ [e]).

  Definition sumw (l : list nat) : Q := fold_right (fun e a => (w e + a)%Q) 0%Q l.

  (** following predecessors from [v] yields the edges [l] (root first) *)
  Inductive chain (prd : nat -> option nat) (d : dir) : nat -> list nat -> Prop :=
  | chain_root v : prd v = None -> v = root d -> chain prd d v []
  | chain_step v e l : prd v = Some e -> tgt d e = v -> In e (adj d (tgt (opp d) e)) ->
      chain prd d (tgt (opp d) e) l -> chain prd d v (l ++ [e]).

  Section Facts.
    Hypothesis w_nonneg : forall d u e, In e (adj d u) -> (0 <= w e)%Q.
    Hypothesis near : forall d u e, In e (adj d u) -> tgt (opp d) e = u.

    Lemma sumw_app a b : (sumw (a ++ b) == sumw a + sumw b)%Q.
    Proof. induction a as [|x a IH]; simpl; [ring|]. rewrite IH. ring. Qed.
    Lemma sumw_single e : (sumw [e] == w e)%Q.
    Proof. simpl. ring. Qed.

    Lemma walk_nonneg d v l : walk d v l -> (0 <= sumw l)%Q.
    Proof.
      induction 1 as [|u l e _ IH He]; [apply Qle_refl|].
      rewrite sumw_app, sumw_single. pose proof (w_nonneg _ _ _ He). lra.
    Qed.

    Lemma walk_nil_inv d v : walk d v [] -> v = root d.
    Proof.
      intros H. remember [] as l eqn:E. destruct H as [|u l e _ _]; auto. destruct l; discriminate.
    Qed.
    Lemma walk_snoc_inv d v l e : walk d v (l ++ [e]) ->
      exists u, walk d u l /\ In e (adj d u) /\ v = tgt d e.
    Proof.
      intros H. remember (l ++ [e]) as k eqn:E. destruct H as [|u k x Hw Hx]; [destruct l; discriminate|].
      apply app_inj_tail in E. destruct E as [-> ->]. eauto.
    Qed.
    Lemma walk_fun d l v v' : walk d v l -> walk d v' l -> v = v'.
    Proof.
      destruct l as [|e l _] using rev_ind; intros H H'.
      - apply walk_nil_inv in H, H'. congruence.
      - apply walk_snoc_inv in H, H'. destruct H as (? & _ & _ & ->), H' as (? & _ & _ & ->). reflexivity.
    Qed.
    Lemma walk_prefix d v l : walk d v l -> forall l1 l2, l = l1 ++ l2 -> exists x, walk d x l1.
    Proof.
      induction 1 as [|u l e Hw IH He]; intros l1 l2 E.
      - symmetry in E. apply app_eq_nil in E. destruct E as [-> _]. eexists. constructor.
      - destruct l2 as [|e' l2 _] using rev_ind.
        + rewrite app_nil_r in E. subst l1. eexists. econstructor; eauto.
        + rewrite app_assoc in E. apply app_inj_tail in E. destruct E as [-> ->]. eauto.
    Qed.

    (** [x] is met when following predecessors from [v] *)
    Inductive anc (p : nat -> option nat) (d : dir) : nat -> nat -> Prop :=
    | anc_refl v : anc p d v v
    | anc_step v e x : p v = Some e -> anc p d (tgt (opp d) e) x -> anc p d v x.

    Lemma chain_other p p' d y v l :
      (forall x, x <> y -> p' x = p x) -> ~ anc p d v y -> chain p d v l -> chain p' d v l.
    Proof.
      intros Hp Ha Hc. induction Hc as [v H1 H2|v e l H1 H2 H3 H4 IH].
      - apply chain_root; auto. rewrite Hp; auto. intros ->. apply Ha. constructor.
      - apply chain_step; auto.
        + rewrite Hp; auto. intros ->. apply Ha. constructor.
        + apply IH. intros Hx. apply Ha. econstructor; eauto.
    Qed.

    Lemma chain_ext p p' d v l : (forall x, p' x = p x) -> chain p d v l -> chain p' d v l.
    Proof.
      intros Hp Hc. induction Hc as [v H1 H2|v e l H1 H2 H3 H4 IH].
      - apply chain_root; auto. now rewrite Hp.
      - apply chain_step; auto. now rewrite Hp.
    Qed.

    (** *** Invariant for arbitrary queues *)
    Record inv (st : ast) : Prop := mkInv {
      i_root : forall d, lab st d (root d) = Some 0%Q /\ prd st d (root d) = None;
      i_lab : forall d v c, lab st d v = Some c -> walk d v (hst st d v) /\ (sumw (hst st d v) == c)%Q;
      i_que : forall v c d, In (v, c, d) (que st) -> exists c', lab st d v = Some c' /\ (c' <= c)%Q;
      i_none : forall d v, v <> root d -> prd st d v = None -> lab st d v = None;
      i_some : forall d v e, prd st d v = Some e ->
        tgt d e = v /\ In e (adj d (tgt (opp d) e)) /\
        exists cu cv, lab st d (tgt (opp d) e) = Some cu /\ lab st d v = Some cv /\ (cu + w e <= cv)%Q;
      i_chain : forall d v c, lab st d v = Some c -> exists l, chain (prd st d) d v l;
      i_best : forall m b, bst st = Some (m, b) ->
        exists cf cb, lab st FWD m = Some cf /\ lab st BWD m = Some cb /\ (cf + cb <= b)%Q;
      i_vis : forall d v, vis st d v = true -> exists c, lab st d v = Some c;
      i_prefix : forall d v c l1 l2, lab st d v = Some c -> hst st d v = l1 ++ l2 ->
        exists x cx, walk d x l1 /\ lab st d x = Some cx /\ (cx <= sumw l1)%Q;
      i_log : forall d l, In (d, l) (log st) ->
        exists x cx, walk d x l /\ lab st d x = Some cx /\ (cx <= sumw l)%Q;
      i_nodup : NoDup (log st);
      i_simple : forall d v c, lab st d v = Some c ->
        exists ns, NoDup ns /\ length ns = S (length (hst st d v)) /\
          forall x, In x ns -> exists l1 l2, hst st d v = l1 ++ l2 /\ walk d x l1;
      i_lsimple : forall d l, In (d, l) (log st) ->
        exists ns, NoDup ns /\ length ns = S (length l) /\
          forall x, In x ns -> exists l1 l2, l = l1 ++ l2 /\ walk d x l1;
    }.

    Lemma lab_nonneg st d v c : inv st -> lab st d v = Some c -> (0 <= c)%Q.
    Proof.
      intros H E. destruct (i_lab _ H d v c E) as [Hw Hs]. rewrite <- Hs. eapply walk_nonneg; eauto.
    Qed.

    Lemma anc_labels st d v x : inv st -> anc (prd st d) d v x ->
      forall c, lab st d v = Some c -> exists cx, lab st d x = Some cx /\ (cx <= c)%Q.
    Proof.
      intros H. induction 1 as [v|v e x Hp Ha IH]; intros c E; [eauto using Qle_refl|].
      destruct (i_some _ H _ _ _ Hp) as (_ & He & cu & cv & Eu & Ev & Hle).
      destruct (IH cu Eu) as (cx & Ex & Hx). exists cx. split; auto.
      assert (cv = c) by congruence. subst. pose proof (w_nonneg _ _ _ He). lra.
    Qed.

    Lemma chain_cost st d v l : inv st -> chain (prd st d) d v l ->
      forall c, lab st d v = Some c -> walk d v l /\ (sumw l <= c)%Q.
    Proof.
      intros H. induction 1 as [v Hp Hv|v e l Hp Ht He Hc IH]; intros c E.
      - subst v. split; [constructor|]. simpl. eapply lab_nonneg; eauto.
      - destruct (i_some _ H _ _ _ Hp) as (_ & _ & cu & cv & Eu & Ev & Hle).
        assert (cv = c) by congruence. subst cv. destruct (IH cu Eu) as [A B]. split.
        + rewrite <- Ht. econstructor; eauto.
        + rewrite sumw_app, sumw_single. lra.
    Qed.

    (** *** relaxing one edge *)
    Lemma relax1_inv d u c st e cu :
      inv st -> In e (adj d u) -> lab st d u = Some cu -> (cu == c)%Q -> inv (relax1 d u c st e).
    Proof.
      intros H He Eu Hc. unfold relax1. set (x := tgt d e).
      destruct (match lab st d x with None => true | Some old => qltb (c + w e) old end) eqn:Elt; auto.
      pose proof (w_nonneg _ _ _ He) as Hw.
      assert (Hlt : forall old, lab st d x = Some old -> (c + w e < old)%Q).
      { intros old E. rewrite E in Elt. now apply qltb_lt. }
      clear Elt.
      assert (Hux : u <> x).
      { intros E. rewrite E in Eu. specialize (Hlt _ Eu). lra. }
      assert (Hrx : x <> root d).
      { intros E. rewrite E in Hlt. specialize (Hlt 0%Q (proj1 (i_root _ H d))).
        pose proof (lab_nonneg st d u cu H Eu). lra. }
      destruct (i_lab _ H d u cu Eu) as [Hwk Hsum].
      assert (Hnear : tgt (opp d) e = u) by (eapply near; eauto).
      assert (Hwk' : walk d x (hst st d u ++ [e])) by (econstructor; eauto).
      assert (Hsum' : (sumw (hst st d u ++ [e]) == c + w e)%Q)
        by (rewrite sumw_app, sumw_single, Hsum, Hc; reflexivity).
      set (nl := up2 (lab st) d x (Some (c + w e)%Q)).
      (* labels only decrease *)
      assert (Hmono : forall d' v c0, lab st d' v = Some c0 ->
                exists c1, nl d' v = Some c1 /\ (c1 <= c0)%Q).
      { intros d' v c0 E. unfold nl. destruct (up2_cases (lab st) d x (Some (c + w e)%Q) d' v) as [(-> & -> & ->)|[_ ->]].
        - exists (c + w e)%Q. split; auto. apply Qlt_le_weak. now apply Hlt.
        - exists c0. split; auto. apply Qle_refl. }
      assert (Hnew : nl d x = Some (c + w e)%Q) by apply up2_eq.
      assert (Hold : forall d' v, (d <> d' \/ x <> v) -> nl d' v = lab st d' v) by (intros; now apply up2_neq).
      assert (Hanc : ~ anc (prd st d) d u x).
      { intros Ha. destruct (anc_labels st d u x H Ha cu Eu) as (cx & Ex & Hx).
        specialize (Hlt _ Ex). lra. }
      (* no prefix of the walk to u ends in x *)
      assert (Hpre : forall l1 l2, hst st d u = l1 ++ l2 -> ~ walk d x l1).
      { intros l1 l2 E Hx. destruct (i_prefix _ H d u cu l1 l2 Eu E) as (y & cy & Hy & Ey & Hle).
        assert (y = x) by (eapply walk_fun; eauto). subst y. specialize (Hlt _ Ey).
        assert (Hs : (sumw (hst st d u) == sumw l1 + sumw l2)%Q) by (rewrite E; apply sumw_app).
        assert ((0 <= sumw l2)%Q); [|lra].
        clear - Hwk E w_nonneg. revert l1 l2 E. induction Hwk as [|u l e Hw IH He]; intros l1 l2 E.
        - symmetry in E. apply app_eq_nil in E. destruct E as [-> ->]. apply Qle_refl.
        - destruct l2 as [|e' l2 _] using rev_ind; [apply Qle_refl|].
          rewrite app_assoc in E. apply app_inj_tail in E. destruct E as [-> ->].
          rewrite sumw_app, sumw_single. pose proof (w_nonneg _ _ _ He). specialize (IH _ _ eq_refl). lra. }
      assert (Hsimp : exists ns, NoDup ns /\ length ns = S (length (hst st d u ++ [e])) /\
                forall y, In y ns -> exists l1 l2, hst st d u ++ [e] = l1 ++ l2 /\ walk d y l1).
      { destruct (i_simple _ H d u cu Eu) as (ns & N1 & N2 & N3). exists (x :: ns).
        split; [|split].
        - constructor; auto. intros Hin. destruct (N3 x Hin) as (l1 & l2 & E & Hx). now apply (Hpre l1 l2).
        - rewrite app_length. simpl. lia.
        - intros y [<-|Hy].
          + exists (hst st d u ++ [e]), []. rewrite app_nil_r. auto.
          + destruct (N3 y Hy) as (l1 & l2 & E & Hy'). exists l1, (l2 ++ [e]). rewrite E, app_assoc. auto. }
      constructor; cbn [lab prd vis flg que bst dn mx hst log]; fold nl.
      - intros d'. destruct (i_root _ H d') as [A B].
        destruct (dir_eqb_spec d d') as [<-|Hd].
        + rewrite Hold, up2_neq by auto. auto.
        + rewrite Hold, up2_neq by auto. auto.
      - intros d' v c0 E. unfold nl in E.
        destruct (up2_cases (lab st) d x (Some (c + w e)%Q) d' v) as [(<- & <- & E')|[Hne E']]; rewrite E' in E.
        + rewrite up2_eq. injection E as <-. auto.
        + rewrite up2_neq by auto. now apply (i_lab _ H).
      - intros v c0 d' Hin.
        assert (Hin' : In (v, c0, d') (que st) \/ (v, c0, d') = (x, (c + w e)%Q, d)).
        { destruct (ch || _); auto. destruct Hin as [<-|Hin]; auto. }
        destruct Hin' as [Hq|Hq].
        + destruct (i_que _ H _ _ _ Hq) as (c' & E' & Hle). destruct (Hmono _ _ _ E') as (c1 & E1 & Hle1).
          exists c1. split; auto. lra.
        + injection Hq as -> -> ->. exists (c + w e)%Q. split; auto. apply Qle_refl.
      - intros d' v Hv Hp. destruct (up2_cases (prd st) d x (Some e) d' v) as [(<- & <- & E')|[Hne E']];
          rewrite E' in Hp; [discriminate|]. rewrite Hold by auto. now apply (i_none _ H).
      - intros d' v e' Hp. destruct (up2_cases (prd st) d x (Some e) d' v) as [(<- & <- & E')|[Hne E']];
          rewrite E' in Hp.
        + injection Hp as <-. split; auto. rewrite Hnear. split; auto.
          exists cu, (c + w e)%Q. rewrite Hold by auto. split; auto. split; auto. lra.
        + destruct (i_some _ H _ _ _ Hp) as (A & B & c1 & c2 & E1 & E2 & Hle). split; auto. split; auto.
          destruct (Hmono _ _ _ E1) as (c1' & E1' & Hle1). exists c1', c2.
          rewrite (Hold d' v) by auto. split; auto. split; auto. lra.
      - set (p' := up2 (prd st) d x (Some e)).
        assert (Hp' : forall y, y <> x -> p' d y = prd st d y)
          by (intros y Hy; unfold p'; now rewrite up2_neq by auto).
        destruct (i_chain _ H d u cu Eu) as [lu Hlu].
        assert (Hlu' : chain (p' d) d u lu) by (eapply chain_other; eauto).
        assert (Hx : chain (p' d) d x (lu ++ [e])).
        { apply chain_step; try (rewrite Hnear); auto. unfold p'. apply up2_eq. }
        intros d' v c0 E. destruct (dir_eqb_spec d d') as [<-|Hd].
        + destruct (Nat.eq_dec v x) as [->|Hv]; [eauto|].
          rewrite Hold in E by auto. destruct (i_chain _ H _ _ _ E) as [l Hl]. clear - Hl Hx Hp' Hrx.
          induction Hl as [v H1 H2|v e' l H1 H2 H3 H4 IH].
          * exists []. apply chain_root; auto. rewrite Hp'; auto. congruence.
          * destruct (Nat.eq_dec v x) as [->|Hv]; [eauto|]. destruct IH as [l' Hl'].
            exists (l' ++ [e']). apply chain_step; auto. now rewrite Hp' by auto.
        + rewrite Hold in E by auto. destruct (i_chain _ H _ _ _ E) as [l Hl]. exists l.
          apply chain_ext with (prd st d'); auto. intros y. unfold p'. now rewrite up2_neq by auto.
      - intros m b E. destruct (i_best _ H m b E) as (cf & cb & Ef & Eb & Hle).
        destruct (Hmono _ _ _ Ef) as (cf' & Ef' & Hf). destruct (Hmono _ _ _ Eb) as (cb' & Eb' & Hb).
        exists cf', cb'. split; auto. split; auto. lra.
      - intros d' v Hv. destruct (i_vis _ H _ _ Hv) as (c0 & E0). destruct (Hmono _ _ _ E0) as (c1 & E1 & _). eauto.
      - assert (Hpr : forall d' v c0 l1 l2, lab st d' v = Some c0 -> hst st d' v = l1 ++ l2 ->
          exists y cy, walk d' y l1 /\ nl d' y = Some cy /\ (cy <= sumw l1)%Q).
        { intros d' v c0 l1 l2 E El. destruct (i_prefix _ H _ _ _ _ _ E El) as (y & cy & Hy & Ey & Hle).
          destruct (Hmono _ _ _ Ey) as (cy' & Ey' & Hle'). exists y, cy'. split; auto. split; auto. lra. }
        intros d' v c0 l1 l2 E El. unfold nl in E.
        destruct (up2_cases (lab st) d x (Some (c + w e)%Q) d' v) as [(<- & <- & E')|[Hne E']]; rewrite E' in E.
        + rewrite up2_eq in El. destruct l2 as [|e' l2 _] using rev_ind.
          * rewrite app_nil_r in El. subst l1. exists x, (c + w e)%Q. split; auto. split; auto. lra.
          * rewrite app_assoc in El. apply app_inj_tail in El. destruct El as [El ->]. eauto.
        + rewrite up2_neq in El by auto. eauto.
      - intros d' l [E|Hin].
        + injection E as <- <-. exists x, (c + w e)%Q. split; auto. split; auto. lra.
        + destruct (i_log _ H _ _ Hin) as (y & cy & Hy & Ey & Hle).
          destruct (Hmono _ _ _ Ey) as (cy' & Ey' & Hle'). exists y, cy'. split; auto. split; auto. lra.
      - constructor; [|apply (i_nodup _ H)]. intros Hin. destruct (i_log _ H _ _ Hin) as (y & cy & Hy & Ey & Hle).
        assert (y = x) by (eapply walk_fun; eauto). subst y. specialize (Hlt _ Ey). lra.
      - intros d' v c0 E. unfold nl in E.
        destruct (up2_cases (lab st) d x (Some (c + w e)%Q) d' v) as [(<- & <- & E')|[Hne E']]; rewrite E' in E.
        + rewrite up2_eq. exact Hsimp.
        + rewrite up2_neq by auto. now apply (i_simple _ H _ _ c0).
      - intros d' l [E|Hin].
        + injection E as <- <-. exact Hsimp.
        + now apply (i_lsimple _ H).
    Qed.

    (** relaxing does not touch the label of the expanded node *)
    Lemma relax1_self d u c st e cu :
      inv st -> In e (adj d u) -> lab st d u = Some cu -> (cu == c)%Q ->
      lab (relax1 d u c st e) d u = Some cu.
    Proof.
      intros H He Eu Hc. unfold relax1. set (x := tgt d e).
      destruct (match lab st d x with None => true | Some old => qltb (c + w e) old end) eqn:Elt; auto.
      cbn [lab]. rewrite up2_neq; auto. right. intros E. subst x. rewrite E, Eu in Elt.
      apply qltb_lt in Elt. pose proof (w_nonneg _ _ _ He). lra.
    Qed.

    Lemma relax_inv d u c cu es : forall st,
      inv st -> (forall e, In e es -> In e (adj d u)) -> lab st d u = Some cu -> (cu == c)%Q ->
      inv (fold_left (relax1 d u c) es st) /\ lab (fold_left (relax1 d u c) es st) d u = Some cu.
    Proof.
      induction es as [|e es IH]; intros st H Hin Eu Hc; simpl; auto.
      apply IH; auto.
      - eapply relax1_inv; eauto. apply Hin. now left.
      - intros e' He'. apply Hin. now right.
      - apply relax1_self; auto. apply Hin. now left.
    Qed.

    Lemma total_some st v t : total st v = Some t ->
      exists a b, lab st FWD v = Some a /\ lab st BWD v = Some b /\ t = (a + b)%Q.
    Proof.
      unfold total. destruct (lab st FWD v), (lab st BWD v); try discriminate. injection 1 as <-. eauto.
    Qed.

    Lemma new_best_spec st d v m b : inv st -> new_best st d v = Some (m, b) ->
      exists cf cb, lab st FWD m = Some cf /\ lab st BWD m = Some cb /\ (cf + cb <= b)%Q.
    Proof.
      intros H. unfold new_best. destruct (bst st) as [[m' b']|] eqn:Eb.
      - destruct (total st v) as [t|] eqn:Et.
        + destruct (qltb t b').
          * injection 1 as <- <-. apply total_some in Et. destruct Et as (x & y & -> & -> & ->).
            eauto using Qle_refl.
          * injection 1 as <- <-. now apply (i_best _ H).
        + injection 1 as <- <-. now apply (i_best _ H).
      - destruct (meets st d v); [|discriminate]. destruct (total st v) as [t|] eqn:Et; [|discriminate].
        injection 1 as <- <-. apply total_some in Et. destruct Et as (x & y & -> & -> & ->).
        eauto using Qle_refl.
    Qed.

    Lemma enter_inv st v c d cv : inv st -> lab st d v = Some cv -> inv (enter st v c d).
    Proof.
      intros H E. destruct H. constructor; cbn [enter lab prd vis flg que bst dn mx hst log]; auto.
      - intros m b Hb. apply (new_best_spec st d v); auto. constructor; auto.
      - intros d' v' Hv. destruct (up2_cases (vis st) d v true d' v') as [(<- & <- & _)|[_ E']];
          [eauto|rewrite E' in Hv; auto].
    Qed.

    Lemma cut_inv st v c d cv : inv st -> lab st d v = Some cv -> inv (cut st v c d).
    Proof.
      intros H E. destruct H. constructor; cbn [cut lab prd vis flg que bst dn mx hst log]; auto.
      intros d' v' Hv. destruct (up2_cases (vis st) d v true d' v') as [(<- & <- & _)|[_ E']];
        [eauto|rewrite E' in Hv; auto].
    Qed.

    (** popping *)
    Lemma set_que_inv st q : inv st -> (forall e, In e q -> In e (que st)) -> inv (set_que st q).
    Proof.
      intros H Hq. destruct H. constructor; cbn [set_que lab prd vis flg que bst dn mx hst log]; auto.
    Qed.

    Lemma iter_inv st v c d cv : inv st -> lab st d v = Some cv -> (cv <= c)%Q -> inv (iter st v c d).
    Proof.
      intros H E Hle. unfold iter. rewrite E. destruct (qltb cv c) eqn:E1; auto.
      apply qltb_ge in E1.
      destruct (match bst st with Some (_, b) => qltb b c | None => false end); [eapply cut_inv; eauto|].
      apply (relax_inv d v c cv); auto.
      - eapply enter_inv; eauto.
      - lra.
    Qed.

    Lemma init_inv : inv init.
    Proof.
      assert (Hl : forall d v c, lab init d v = Some c -> c = 0%Q /\ v = root d).
      { intros d v c. cbn [init lab]. unfold up2. destruct d; simpl; destruct (Nat.eqb_spec (root FWD) v);
          destruct (Nat.eqb_spec (root BWD) v); try discriminate; injection 1 as <-; auto. }
      assert (Hr : forall d, lab init d (root d) = Some 0%Q).
      { intros []; cbn [init lab]; [rewrite up2_neq by (left; discriminate)|]; apply up2_eq. }
      assert (Hq : forall v c d, In (v, c, d) (que init) -> c = 0%Q /\ v = root d).
      { intros v c d [E|[E|[]]]; injection E as <- <- <-; auto. }
      constructor.
      - intros d. split; auto.
      - intros d v c E. destruct (Hl _ _ _ E) as [-> ->]. split; [constructor|reflexivity].
      - intros v c d Hin. destruct (Hq _ _ _ Hin) as [-> ->]. exists 0%Q. split; auto. apply Qle_refl.
      - intros d v Hv _. destruct (lab init d v) eqn:E; auto. destruct (Hl _ _ _ E). contradiction.
      - discriminate.
      - intros d v c E. destruct (Hl _ _ _ E) as [-> ->]. exists []. constructor; auto.
      - discriminate.
      - discriminate.
      - intros d v c l1 l2 E El. cbn [init hst] in El. symmetry in El. apply app_eq_nil in El. destruct El as [-> ->].
        exists (root d), 0%Q. split; [constructor|]. split; auto. apply Qle_refl.
      - intros d l [].
      - constructor.
      - intros d v c E. destruct (Hl _ _ _ E) as [-> ->]. exists [root d]. split; [constructor; [easy|constructor]|].
        split; auto. intros x [<-|[]]. exists [], []. split; auto. constructor.
      - intros d l [].
    Qed.

    (** *** Invariant about expanded nodes, still for arbitrary queues *)
    (** edges in [es] are known to be relaxed *)
    Definition relaxed (st : ast) (d : dir) (v : nat) (es : list nat) : Prop :=
      forall e, In e es -> exists cu c, lab st d v = Some cu /\ lab st d (tgt d e) = Some c /\ (c <= cu + w e)%Q.

    Record inv2 (st : ast) : Prop := mkInv2 {
      j_lab : forall d v c, ch = true \/ bst st = None -> lab st d v = Some c ->
        In (v, c, d) (que st) \/ dn st d v = true \/ exists m b, bst st = Some (m, b) /\ (b < c)%Q;
      j_vis : forall d v, dn st d v = true -> vis st d v = true;
      j_both : forall v, dn st FWD v = true -> dn st BWD v = true ->
        exists m b cf cb, bst st = Some (m, b) /\ lab st FWD v = Some cf /\ lab st BWD v = Some cb /\
          (b <= cf + cb)%Q;
      j_flag : forall d, bst st = None -> flg st d = false;
    }.
    Definition inv2_dn (st : ast) : Prop := forall d v, dn st d v = true -> relaxed st d v (adj d v).
    (** the same while [u] is being expanded: only [es] are relaxed *)
    Definition inv2_dn_but (st : ast) (d : dir) (u : nat) (es : list nat) : Prop :=
      (forall d' v, dn st d' v = true -> (d <> d' \/ u <> v) -> relaxed st d' v (adj d' v)) /\
      relaxed st d u es.

    Lemma relax1_lab d u c st e d' v :
      (lab (relax1 d u c st e) d' v = lab st d' v) \/
      (d' = d /\ v = tgt d e /\ lab (relax1 d u c st e) d' v = Some (c + w e)%Q /\
       (forall old, lab st d' v = Some old -> (c + w e < old)%Q)).
    Proof.
      unfold relax1. destruct (match lab st d (tgt d e) with None => true | Some old => qltb (c + w e) old end) eqn:E; auto.
      cbn [lab]. destruct (up2_cases (lab st) d (tgt d e) (Some (c + w e)%Q) d' v) as [(<- & <- & E')|[_ E']]; auto.
      right. repeat split; auto. intros old Ho. rewrite Ho in E. now apply qltb_lt.
    Qed.

    Lemma relax1_mono d u c st e d' v c0 : lab st d' v = Some c0 ->
      exists c1, lab (relax1 d u c st e) d' v = Some c1 /\ (c1 <= c0)%Q.
    Proof.
      intros E. destruct (relax1_lab d u c st e d' v) as [->|(_ & _ & -> & H)].
      - exists c0. split; auto. apply Qle_refl.
      - eexists. split; eauto. apply Qlt_le_weak. auto.
    Qed.

    Lemma relax1_tgt d u c st e : exists c1, lab (relax1 d u c st e) d (tgt d e) = Some c1 /\ (c1 <= c + w e)%Q.
    Proof.
      unfold relax1. destruct (lab st d (tgt d e)) as [old|] eqn:E0.
      - destruct (qltb (c + w e) old) eqn:E.
        + cbn [lab]. rewrite up2_eq. eexists. split; eauto. apply Qle_refl.
        + apply qltb_ge in E. exists old. auto.
      - cbn [lab]. rewrite up2_eq. eexists. split; eauto. apply Qle_refl.
    Qed.

    Lemma relax1_bst d u c st e : bst (relax1 d u c st e) = bst st.
    Proof. unfold relax1. destruct (match lab st d (tgt d e) with None => true | Some old => qltb (c + w e) old end); auto. Qed.
    Lemma relax1_flg d u c st e : flg (relax1 d u c st e) = flg st.
    Proof. unfold relax1. destruct (match lab st d (tgt d e) with None => true | Some old => qltb (c + w e) old end); auto. Qed.
    Lemma relax1_vis d u c st e : vis (relax1 d u c st e) = vis st.
    Proof. unfold relax1. destruct (match lab st d (tgt d e) with None => true | Some old => qltb (c + w e) old end); auto. Qed.
    Lemma relax1_mx d u c st e : mx (relax1 d u c st e) = mx st.
    Proof. unfold relax1. destruct (match lab st d (tgt d e) with None => true | Some old => qltb (c + w e) old end); auto. Qed.
    Lemma relax1_que d u c st e x : In x (que st) -> In x (que (relax1 d u c st e)).
    Proof.
      unfold relax1. destruct (match lab st d (tgt d e) with None => true | Some old => qltb (c + w e) old end); auto.
      cbn [que]. destruct (ch || _); simpl; auto.
    Qed.
    Lemma relax1_que_inv d u c st e x : In x (que (relax1 d u c st e)) ->
      In x (que st) \/ x = (tgt d e, (c + w e)%Q, d).
    Proof.
      unfold relax1. destruct (match lab st d (tgt d e) with None => true | Some old => qltb (c + w e) old end); auto.
      cbn [que]. destruct (ch || _); simpl; auto. intros [<-|H]; auto.
    Qed.

    (** an expanded node keeps its label when an edge is relaxed *)
    Lemma relax1_dn d u c st e d' v : dn (relax1 d u c st e) d' v = true ->
      dn st d' v = true /\ lab (relax1 d u c st e) d' v = lab st d' v.
    Proof.
      unfold relax1. destruct (match lab st d (tgt d e) with None => true | Some old => qltb (c + w e) old end); auto.
      cbn [dn lab]. destruct (up2_cases (dn st) d (tgt d e) false d' v) as [(<- & <- & E)|[Hn E]]; rewrite E.
      - discriminate.
      - intros H. split; auto. now rewrite up2_neq by auto.
    Qed.

    Lemma relaxed_relax1 d u c st e d' v es :
      relaxed st d' v es -> lab (relax1 d u c st e) d' v = lab st d' v ->
      relaxed (relax1 d u c st e) d' v es.
    Proof.
      intros H E e' He'. destruct (H e' He') as (cu & c0 & Ev & Et & Hle).
      destruct (relax1_mono d u c st e _ _ _ Et) as (c1 & E1 & Hle1).
      exists cu, c1. rewrite E. split; auto. split; auto. lra.
    Qed.

    Lemma relax1_inv2 d u c st e : inv2 st -> inv2 (relax1 d u c st e).
    Proof.
      intros H. constructor.
      - intros d' v c0 Hm E. rewrite relax1_bst in Hm |- *.
        assert (Hpush : ch || match bst st with None => true | _ => false end = true).
        { destruct Hm as [->| ->]; auto. now rewrite orb_true_r. }
        unfold relax1 in *. destruct (match lab st d (tgt d e) with None => true | Some old => qltb (c + w e) old end).
        + cbn [lab que dn] in *. rewrite Hpush.
          destruct (up2_cases (lab st) d (tgt d e) (Some (c + w e)%Q) d' v) as [(<- & <- & E')|[Hn E']]; rewrite E' in E.
          * injection E as <-. left. now left.
          * destruct (j_lab _ H d' v c0 Hm E) as [A|[A|A]]; auto.
            -- left. now right.
            -- right. left. now rewrite up2_neq by auto.
        + now apply (j_lab _ H).
      - intros d' v Hd. apply relax1_dn in Hd. rewrite relax1_vis. now apply (j_vis _ H).
      - intros v Hf Hb. apply relax1_dn in Hf. apply relax1_dn in Hb. destruct Hf as [Hf ->], Hb as [Hb ->].
        rewrite relax1_bst. now apply (j_both _ H).
      - intros d' Hn. rewrite relax1_bst in Hn. rewrite relax1_flg. now apply (j_flag _ H).
    Qed.

    Lemma relax_inv2 d u c cu es : forall st es0,
      inv st -> inv2 st -> inv2_dn_but st d u es0 -> lab st d u = Some cu -> (cu == c)%Q ->
      (forall e, In e es -> In e (adj d u)) ->
      inv2 (fold_left (relax1 d u c) es st) /\
      inv2_dn_but (fold_left (relax1 d u c) es st) d u (es0 ++ es).
    Proof.
      induction es as [|e es IH]; intros st es0 H H2 Hd Eu Hc Hin; simpl.
      - rewrite app_nil_r. auto.
      - assert (He : In e (adj d u)) by (apply Hin; now left).
        pose proof (relax1_self d u c st e cu H He Eu Hc) as Hself.
        replace (es0 ++ e :: es) with ((es0 ++ [e]) ++ es) by now rewrite <- app_assoc.
        apply IH; auto.
        + eapply relax1_inv; eauto.
        + now apply relax1_inv2.
        + destruct Hd as [A B]. split.
          * intros d' v Hv Hn. apply relax1_dn in Hv. destruct Hv as [Hv Hl].
            apply relaxed_relax1; auto.
          * intros e' He'. apply in_app_or in He'. destruct He' as [He'|[<-|[]]].
            -- apply relaxed_relax1 with (es := es0); auto. congruence.
            -- destruct (relax1_tgt d u c st e) as (c1 & E1 & Hle). exists cu, c1. split; auto. split; auto. lra.
        + intros e' He'. apply Hin. now right.
    Qed.

    Lemma new_best_le st d v m b : bst st = Some (m, b) ->
      exists m' b', new_best st d v = Some (m', b') /\ (b' <= b)%Q /\
        forall t, total st v = Some t -> (b' <= t)%Q.
    Proof.
      intros E. unfold new_best. rewrite E. destruct (total st v) as [t|].
      - destruct (qltb t b) eqn:El.
        + apply qltb_lt in El. exists v, t. split; auto. split; [lra|]. intros t' Ht. injection Ht as <-. apply Qle_refl.
        + apply qltb_ge in El. exists m, b. split; auto. split; [apply Qle_refl|]. intros t' Ht. now injection Ht as <-.
      - exists m, b. split; auto. split; [apply Qle_refl|]. discriminate.
    Qed.

    Lemma enter_inv2 st v c d cv q' :
      inv st -> inv2 st -> inv2_dn st -> lab st d v = Some cv -> (cv == c)%Q ->
      (forall e, In e (que st) -> e = (v, c, d) \/ In e q') ->
      inv2 (enter (set_que st q') v c d) /\ inv2_dn_but (enter (set_que st q') v c d) d v [].
    Proof.
      intros H H2 Hd E Hc Hq.
      assert (Hle : forall m b, bst st = Some (m, b) -> exists m' b',
                new_best (set_que st q') d v = Some (m', b') /\ (b' <= b)%Q /\
                forall t, total st v = Some t -> (b' <= t)%Q).
      { intros m b Eb. apply (new_best_le (set_que st q') d v m b Eb). }
      split; [constructor|split].
      - intros d' v' c0 Hm E'. cbn [enter lab que dn bst] in *.
        destruct (up2_cases (dn st) d v true d' v') as [(<- & <- & Ed)|[Hn Ed]]; [right; left; exact Ed|].
        change (dn (set_que st q')) with (dn st). rewrite Ed.
        assert (Hm' : ch = true \/ bst st = None).
        { destruct Hm as [Hm|Hm]; auto. right. destruct (bst st) as [[m b]|] eqn:Eb; auto.
          destruct (Hle m b eq_refl) as (? & ? & Hx & _). congruence. }
        destruct (j_lab _ H2 d' v' c0 Hm' E') as [A|[A|(m & b & Eb & A)]]; auto.
        + destruct (Hq _ A) as [Hx|Hx]; auto. injection Hx as -> <- <-. destruct Hn; congruence.
        + right. right. destruct (Hle m b Eb) as (m' & b' & Hx & Hb & _). exists m', b'. split; auto. lra.
      - intros d' v' Hv. cbn [enter dn vis] in *. change (dn (set_que st q')) with (dn st) in Hv.
        change (vis (set_que st q')) with (vis st).
        destruct (up2_cases (dn st) d v true d' v') as [(<- & <- & Ed)|[Hn Ed]].
        + apply up2_eq.
        + rewrite Ed in Hv. rewrite up2_neq by auto. now apply (j_vis _ H2).
      - intros v' Hf Hb. cbn [enter dn bst lab] in *. change (dn (set_que st q')) with (dn st) in *.
        change (lab (set_que st q')) with (lab st) in *.
        destruct (Nat.eq_dec v v') as [<-|Hv].
        + (* v itself is expanded in both directions *)
          assert (Ho : dn st (opp d) v = true).
          { destruct d; simpl in *.
            - rewrite up2_neq in Hb by (left; discriminate). exact Hb.
            - rewrite up2_neq in Hf by (left; discriminate). exact Hf. }
          pose proof (j_vis _ H2 _ _ Ho) as Hvo. destruct (i_vis _ H _ _ Hvo) as (co & Eo).
          assert (Ht : exists cf cb, lab st FWD v = Some cf /\ lab st BWD v = Some cb /\ total st v = Some (cf + cb)%Q).
          { unfold total. destruct d; simpl in Eo; rewrite E, Eo; eauto. }
          destruct Ht as (cf & cb & Ef & Eb & Ht).
          destruct (bst st) as [[m b]|] eqn:Ebst.
          * destruct (Hle m b eq_refl) as (m' & b' & Hx & _ & Hb'). exists m', b', cf, cb.
            split; auto.
          * exists v, (cf + cb)%Q, cf, cb. split; [|split; [auto|split; [auto|apply Qle_refl]]].
            unfold new_best. cbn [set_que bst]. rewrite Ebst.
            change (total (set_que st q') v) with (total st v). rewrite Ht.
            unfold meets. cbn [set_que lab vis]. rewrite Eo, Hvo. now destruct ch.
        + rewrite up2_neq in Hf, Hb by auto. destruct (j_both _ H2 v' Hf Hb) as (m & b & cf & cb & Eb & Ef & Ebb & Hx).
          destruct (Hle m b Eb) as (m' & b' & Hy & Hz & _). exists m', b', cf, cb. split; auto. split; auto. split; auto. lra.
      - intros d' Hn. cbn [enter flg bst] in *. apply (j_flag _ H2). destruct (bst st) as [[m b]|] eqn:Eb; auto.
        destruct (Hle m b eq_refl) as (? & ? & Hx & _). congruence.
      - intros d' v' Hv Hn. cbn [enter dn] in Hv. rewrite up2_neq in Hv by auto.
        exact (Hd d' v' Hv).
      - intros e [].
    Qed.

    Lemma pop_inv2_invalid st v c d cv q' :
      inv2 st -> lab st d v = Some cv -> (cv < c)%Q ->
      (forall e, In e (que st) -> e = (v, c, d) \/ In e q') -> inv2 (set_que st q').
    Proof.
      intros H E Hlt Hq. destruct H. constructor; cbn [set_que lab que dn bst vis flg]; auto.
      intros d' v' c0 Hm E'. destruct (j_lab0 d' v' c0 Hm E') as [A|A]; auto.
      destruct (Hq _ A) as [Hx|Hx]; auto. injection Hx as -> -> ->. rewrite E in E'. injection E' as ->. exfalso. lra.
    Qed.

    Lemma cut_inv2 st v c d cv q' m b :
      inv2 st -> lab st d v = Some cv -> (cv == c)%Q -> bst st = Some (m, b) -> (b < c)%Q ->
      (forall e, In e (que st) -> e = (v, c, d) \/ In e q') -> inv2 (cut (set_que st q') v c d).
    Proof.
      intros H E Hc Eb Hb Hq. destruct H. constructor; cbn [cut set_que lab que dn bst vis flg]; auto.
      - intros d' v' c0 Hm E'. destruct (j_lab0 d' v' c0 Hm E') as [A|[A|A]]; auto.
        destruct (Hq _ A) as [Hx|Hx]; auto. injection Hx as -> -> ->. right. right. eauto.
      - intros d' v' Hv. destruct (up2_cases (vis st) d v true d' v') as [(_ & _ & ->)|[_ ->]]; auto.
      - congruence.
    Qed.

    (** *** one iteration *)
    Definition iterate (st : ast) (v : nat) (c : Q) (d : dir) (q' : list entry) : ast :=
      iter (set_que st q') v c d.

    Definition pops (q : list entry) (v : nat) (c : Q) (d : dir) (q' : list entry) : Prop :=
      Permutation q ((v, c, d) :: q').

    Lemma pops_in q v c d q' : pops q v c d q' ->
      In (v, c, d) q /\ (forall e, In e q' -> In e q) /\ (forall e, In e q -> e = (v, c, d) \/ In e q').
    Proof.
      intros H. split; [|split].
      - apply (Permutation_in _ (Permutation_sym H)). now left.
      - intros e He. apply (Permutation_in _ (Permutation_sym H)). now right.
      - intros e He. apply (Permutation_in _ H) in He. destruct He as [<-|He]; auto.
    Qed.

    (** the three ways an iteration can go *)
    Lemma iterate_cases st v c d q' : inv st -> pops (que st) v c d q' ->
      exists cv, lab st d v = Some cv /\ (cv <= c)%Q /\
      (((cv < c)%Q /\ iterate st v c d q' = set_que st q') \/
       ((cv == c)%Q /\ exists m b, bst st = Some (m, b) /\ (b < c)%Q /\
          iterate st v c d q' = cut (set_que st q') v c d) \/
       ((cv == c)%Q /\ (forall m b, bst st = Some (m, b) -> (c <= b)%Q) /\
          iterate st v c d q' = fold_left (relax1 d v c) (adj d v) (enter (set_que st q') v c d))).
    Proof.
      intros H Hp. destruct (pops_in _ _ _ _ _ Hp) as (Hin & _ & _).
      destruct (i_que _ H _ _ _ Hin) as (cv & E & Hle). exists cv. split; auto. split; auto.
      unfold iterate, iter. cbn [set_que lab bst]. rewrite E. destruct (qltb cv c) eqn:E1.
      - apply qltb_lt in E1. auto.
      - apply qltb_ge in E1. right. assert (Hc : (cv == c)%Q) by lra.
        destruct (bst st) as [[m b]|] eqn:Eb.
        + destruct (qltb b c) eqn:E2.
          * apply qltb_lt in E2. left. split; auto. exists m, b. auto.
          * apply qltb_ge in E2. right. split; auto. split; auto. intros m' b' Hx. now injection Hx as <- <-.
        + right. split; auto. split; auto. discriminate.
    Qed.

    Lemma iterate_inv st v c d q' : inv st -> pops (que st) v c d q' -> inv (iterate st v c d q').
    Proof.
      intros H Hp. destruct (pops_in _ _ _ _ _ Hp) as (Hin & Hs & _).
      destruct (i_que _ H _ _ _ Hin) as (cv & E & Hle). apply iter_inv with cv; auto.
      apply set_que_inv; auto.
    Qed.

    Lemma iterate_inv2 st v c d q' : inv st -> inv2 st -> inv2_dn st -> pops (que st) v c d q' ->
      inv2 (iterate st v c d q') /\ inv2_dn (iterate st v c d q').
    Proof.
      intros H H2 Hd Hp. destruct (pops_in _ _ _ _ _ Hp) as (Hin & Hs & Hq).
      destruct (iterate_cases st v c d q' H Hp) as (cv & E & Hle & [[Hlt ->]|[(Hc & m & b & Eb & Hb & ->)|(Hc & _ & ->)]]).
      - split; [eapply pop_inv2_invalid; eauto|exact Hd].
      - split; [eapply cut_inv2; eauto|exact Hd].
      - destruct (enter_inv2 st v c d cv q' H H2 Hd E Hc Hq) as [A B].
        assert (Hi : inv (enter (set_que st q') v c d)).
        { eapply enter_inv; eauto. apply set_que_inv; auto. }
        destruct (relax_inv2 d v c cv (adj d v) (enter (set_que st q') v c d) [] Hi A B E Hc) as [C D]; auto.
        split; auto. destruct D as [D1 D2]. simpl in D2. intros d' v' Hv.
        destruct (dir_eqb_spec d d') as [<-|Hn]; [|apply D1; auto].
        destruct (Nat.eq_dec v v') as [<-|Hn]; [exact D2|apply D1; auto].
    Qed.

    Lemma init_inv2 : inv2 init /\ inv2_dn init.
    Proof.
      split; [constructor; try (intros; discriminate); auto|intros d v E; discriminate E].
      intros d v c _ E. left. cbn [init lab que] in *. unfold up2 in E.
      destruct d; simpl in E; destruct (Nat.eqb_spec (root FWD) v); destruct (Nat.eqb_spec (root BWD) v);
        try discriminate; injection E as <-; subst; simpl; auto.
      left. congruence.
    Qed.

    (** *** runs *)
    Section Runs.
      Variable P : list entry -> nat -> Q -> dir -> list entry -> Prop.
      Hypothesis P_pops : forall q v c d q', P q v c d q' -> pops q v c d q'.

      Definition ended (st : ast) : Prop := que st = [] \/ (forall d, flg st d = true).

      Inductive arun : ast -> ast -> Prop :=
      | arun_end st : ended st -> arun st st
      | arun_step st v c d q' st' :
          P (que st) v c d q' -> arun (iterate st v c d q') st' -> arun st st'.

      Lemma arun_inv st st' : arun st st' -> inv st -> inv2 st -> inv2_dn st ->
        inv st' /\ inv2 st' /\ inv2_dn st' /\ ended st'.
      Proof.
        induction 1 as [st He|st v c d q' st' Hp Hr IH]; intros H H2 Hd; auto.
        apply P_pops in Hp. destruct (iterate_inv2 st v c d q' H H2 Hd Hp).
        apply IH; auto. now apply iterate_inv.
      Qed.

      (** no meeting node: nothing is reached from both sides *)
      Lemma run_none st : arun init st -> bst st = None ->
        forall d v l, walk d v l -> dn st d v = true /\ exists c, lab st d v = Some c /\ (c <= sumw l)%Q.
      Proof.
        intros Hr Hn. destruct (arun_inv _ _ Hr init_inv (proj1 init_inv2) (proj2 init_inv2)) as (H & H2 & Hd & He).
        assert (Hq : que st = []).
        { destruct He as [He|He]; auto. specialize (He FWD). rewrite (j_flag _ H2) in He; auto. discriminate. }
        intros d v l Hw. induction Hw as [|u l e Hw IH He'].
        - destruct (i_root _ H d) as [E _]. split; [|exists 0%Q; split; [auto|apply Qle_refl]].
          destruct (j_lab _ H2 d (root d) 0%Q (or_intror Hn) E) as [A|[A|(m & b & Eb & _)]]; auto; [|congruence].
          rewrite Hq in A. destruct A.
        - destruct IH as (Hu & cu & Eu & Hle). destruct (Hd d u Hu e He') as (cu' & c & Eu' & Et & Hc).
          assert (cu' = cu) by congruence. subst cu'.
          split; [|exists c; split; auto; rewrite sumw_app, sumw_single; lra].
          destruct (j_lab _ H2 d (tgt d e) c (or_intror Hn) Et) as [A|[A|(m & b & Eb & _)]]; auto; [|congruence].
          rewrite Hq in A. destruct A.
      Qed.

      Theorem run_found st v lf lb : arun init st -> walk FWD v lf -> walk BWD v lb -> bst st <> None.
      Proof.
        intros Hr Hf Hb Hn.
        destruct (arun_inv _ _ Hr init_inv (proj1 init_inv2) (proj2 init_inv2)) as (H & H2 & Hd & He).
        destruct (run_none st Hr Hn _ _ _ Hf) as (Df & _). destruct (run_none st Hr Hn _ _ _ Hb) as (Db & _).
        destruct (j_both _ H2 v Df Db) as (m & b & _ & _ & Eb & _). congruence.
      Qed.

      Theorem run_path st m b : arun init st -> bst st = Some (m, b) ->
        exists lf lb, chain (prd st FWD) FWD m lf /\ chain (prd st BWD) BWD m lb /\
          walk FWD m lf /\ walk BWD m lb /\ (sumw lf + sumw lb <= b)%Q.
      Proof.
        intros Hr Eb.
        destruct (arun_inv _ _ Hr init_inv (proj1 init_inv2) (proj2 init_inv2)) as (H & H2 & Hd & He).
        destruct (i_best _ H m b Eb) as (cf & cb & Ef & Ebw & Hle).
        destruct (i_chain _ H _ _ _ Ef) as [lf Hf]. destruct (i_chain _ H _ _ _ Ebw) as [lb Hb].
        destruct (chain_cost st FWD m lf H Hf cf Ef) as [Wf Sf].
        destruct (chain_cost st BWD m lb H Hb cb Ebw) as [Wb Sb].
        exists lf, lb. repeat (split; auto). lra.
      Qed.
    End Runs.

    (** *** Runs that pop an entry minimal up to delta *)
    Section Delta.
      Variable delta : Q.
      Hypothesis delta_nonneg : (0 <= delta)%Q.

      Definition near_min (q : list entry) (v : nat) (c : Q) (d : dir) (q' : list entry) : Prop :=
        pops q v c d q' /\ forall e, In e q' -> (c <= e_cost e + delta)%Q.

      Record inv3 (st : ast) : Prop := mkInv3 {
        k_que : forall v c d, In (v, c, d) (que st) -> (mx st - delta <= c)%Q;
        k_vis : forall d v, vis st d v = true -> exists c, lab st d v = Some c /\ (c <= mx st)%Q;
        k_flag : forall d, flg st d = true -> exists m b, bst st = Some (m, b) /\ (b < mx st)%Q;
      }.

      Lemma relax1_inv3 d u c st e : (mx st - delta <= c)%Q -> In e (adj d u) ->
        inv3 st -> inv3 (relax1 d u c st e).
      Proof.
        intros Hc He H. pose proof (w_nonneg _ _ _ He) as Hw. constructor.
        - intros v c0 d' Hin. rewrite relax1_mx. apply relax1_que_inv in Hin. destruct Hin as [Hin|E].
          + apply (k_que _ H _ _ _ Hin).
          + injection E as -> -> ->. lra.
        - intros d' v Hv. rewrite relax1_vis in Hv. rewrite relax1_mx. destruct (k_vis _ H _ _ Hv) as (c0 & E & Hle).
          destruct (relax1_mono d u c st e _ _ _ E) as (c1 & E1 & Hle1). exists c1. split; auto. lra.
        - intros d' Hf. rewrite relax1_flg in Hf. rewrite relax1_bst, relax1_mx. apply (k_flag _ H _ Hf).
      Qed.

      Lemma relax_inv3 d u c es : forall st, (mx st - delta <= c)%Q ->
        (forall e, In e es -> In e (adj d u)) -> inv3 st -> inv3 (fold_left (relax1 d u c) es st).
      Proof.
        induction es as [|e es IH]; intros st Hc Hin H; simpl; auto.
        apply IH.
        - now rewrite relax1_mx.
        - intros e' He'. apply Hin. now right.
        - apply relax1_inv3; auto. apply Hin. now left.
      Qed.

      Lemma mx_max st c : exists M, (if qltb (mx st) c then c else mx st) = M /\ (mx st <= M)%Q /\ (c <= M)%Q /\
        (M == mx st \/ M == c)%Q.
      Proof.
        destruct (qltb (mx st) c) eqn:E.
        - apply qltb_lt in E. exists c. repeat split; auto using Qle_refl, Qlt_le_weak. right. reflexivity.
        - apply qltb_ge in E. exists (mx st). repeat split; auto using Qle_refl. left. reflexivity.
      Qed.

      Lemma iterate_inv3 st v c d q' : inv st -> inv3 st -> near_min (que st) v c d q' ->
        inv3 (iterate st v c d q').
      Proof.
        intros H H3 [Hp Hmin]. destruct (pops_in _ _ _ _ _ Hp) as (Hin & Hs & Hq).
        destruct (mx_max st c) as (M & EM & M1 & M2 & M3).
        pose proof (k_que _ H3 _ _ _ Hin) as Hcm.
        assert (HM : (M - delta <= c)%Q) by lra.
        assert (Hq' : forall v0 c0 d0, In (v0, c0, d0) q' -> (M - delta <= c0)%Q).
        { intros v0 c0 d0 Hi. specialize (Hmin _ Hi). unfold e_cost in Hmin. simpl in Hmin.
          pose proof (k_que _ H3 _ _ _ (Hs _ Hi)). lra. }
        destruct (iterate_cases st v c d q' H Hp) as (cv & E & Hle & [[Hlt ->]|[(Hc & m & b & Eb & Hb & ->)|(Hc & Hb & ->)]]).
        - constructor; cbn [set_que que vis flg lab bst mx]; try apply H3.
          intros v0 c0 d0 Hi. apply (k_que _ H3 v0 c0 d0). auto.
        - constructor; cbn [cut set_que que vis flg lab bst mx]; rewrite EM.
          + intros v0 c0 d0 Hi. eauto.
          + intros d' v' Hv. destruct (up2_cases (vis st) d v true d' v') as [(<- & <- & _)|[_ Ev]].
            * exists cv. split; auto. lra.
            * rewrite Ev in Hv. destruct (k_vis _ H3 _ _ Hv) as (c0 & E0 & L0). exists c0. split; auto. lra.
          + intros d' _. exists m, b. split; auto. lra.
        - apply relax_inv3; auto.
          + cbn [enter set_que mx]. now rewrite EM.
          + constructor; cbn [enter set_que que vis flg lab bst mx]; rewrite EM.
            * intros v0 c0 d0 Hi. eauto.
            * intros d' v' Hv. destruct (up2_cases (vis st) d v true d' v') as [(<- & <- & _)|[_ Ev]].
              -- exists cv. split; auto. lra.
              -- rewrite Ev in Hv. destruct (k_vis _ H3 _ _ Hv) as (c0 & E0 & L0). exists c0. split; auto. lra.
            * intros d' Hf. destruct (k_flag _ H3 _ Hf) as (m & b & Eb & Hlt).
              destruct (new_best_le (set_que st q') d v m b Eb) as (m' & b' & E' & Hle' & _).
              exists m', b'. split; auto. lra.
      Qed.

      Lemma init_inv3 : inv3 init.
      Proof.
        constructor; simpl; try discriminate.
        intros v c d [E|[E|[]]]; injection E as <- <- <-; lra.
      Qed.

      Lemma arun_inv3 st st' : arun near_min st st' -> inv st -> inv2 st -> inv2_dn st -> inv3 st ->
        inv st' /\ inv2 st' /\ inv2_dn st' /\ inv3 st' /\ ended st'.
      Proof.
        induction 1 as [st He|st v c d q' st' Hp Hr IH]; intros H H2 Hd H3; auto.
        destruct (iterate_inv2 st v c d q' H H2 Hd (proj1 Hp)).
        apply IH; auto.
        - apply iterate_inv; auto. apply Hp.
        - now apply iterate_inv3.
      Qed.

      (** **** contracted graphs: optimal among all pairs of walks that meet *)
      Lemma run_ch_walk st : ch = true -> arun near_min init st ->
        forall d v l, walk d v l ->
          (dn st d v = true /\ exists c, lab st d v = Some c /\ (c <= sumw l)%Q) \/
          (exists m b, bst st = Some (m, b) /\ (b <= sumw l + delta)%Q).
      Proof.
        intros Hch Hr. destruct (arun_inv3 _ _ Hr init_inv (proj1 init_inv2) (proj2 init_inv2) init_inv3)
          as (H & H2 & Hd & H3 & He).
        assert (Hcase : forall d v c l, lab st d v = Some c -> (c <= sumw l)%Q -> 
          (dn st d v = true /\ exists c, lab st d v = Some c /\ (c <= sumw l)%Q) \/
          (exists m b, bst st = Some (m, b) /\ (b <= sumw l + delta)%Q)).
        { intros d v c l E Hle. destruct (j_lab _ H2 d v c (or_introl Hch) E) as [A|[A|(m & b & Eb & A)]].
          - right. destruct He as [He|He]; [rewrite He in A; destruct A|].
            destruct (k_flag _ H3 d (He d)) as (m & b & Eb & Hb). exists m, b. split; auto.
            pose proof (k_que _ H3 _ _ _ A). lra.
          - left. eauto.
          - right. exists m, b. split; auto. lra. }
        intros d v l Hw. induction Hw as [|u l e Hw IH He'].
        - apply (Hcase _ _ 0%Q); [apply (i_root _ H d)|apply Qle_refl].
        - pose proof (w_nonneg _ _ _ He') as Hwe. destruct IH as [(Hu & cu & Eu & Hle)|(m & b & Eb & Hle)].
          + destruct (Hd d u Hu e He') as (cu' & c & Eu' & Et & Hc). assert (cu' = cu) by congruence. subst cu'.
            apply (Hcase _ _ c); auto. rewrite sumw_app, sumw_single. lra.
          + right. exists m, b. split; auto. rewrite sumw_app, sumw_single. lra.
      Qed.

      Theorem run_ch_optimal st v lf lb : ch = true -> arun near_min init st ->
        walk FWD v lf -> walk BWD v lb ->
        exists m b, bst st = Some (m, b) /\ (b <= sumw lf + sumw lb + delta)%Q.
      Proof.
        intros Hch Hr Hf Hb.
        destruct (arun_inv3 _ _ Hr init_inv (proj1 init_inv2) (proj2 init_inv2) init_inv3) as (H & H2 & Hd & H3 & He).
        pose proof (walk_nonneg _ _ _ Hf). pose proof (walk_nonneg _ _ _ Hb).
        destruct (run_ch_walk st Hch Hr _ _ _ Hf) as [(Df & cf & Ef & Lf)|(m & b & Eb & Hle)];
          [|exists m, b; split; auto; lra].
        destruct (run_ch_walk st Hch Hr _ _ _ Hb) as [(Db & cb & Eb & Lb)|(m & b & Eb & Hle)];
          [|exists m, b; split; auto; lra].
        destruct (j_both _ H2 v Df Db) as (m & b & cf' & cb' & Ebst & Ef' & Eb' & Hle).
        exists m, b. split; auto. rewrite Ef in Ef'. injection Ef' as <-. rewrite Eb in Eb'. injection Eb' as <-. lra.
      Qed.

      (** **** plain graphs *)
      Section Plain.
        Hypothesis plain : ch = false.
        Hypothesis mirror : forall d u e, In e (adj d u) -> In e (adj (opp d) (tgt d e)).
        (** the walk to beat, of cost [D] *)
        Variable es : list nat.
        Hypothesis es_splits : forall l1 l2, es = l1 ++ l2 -> exists x, walk FWD x l1 /\ walk BWD x (rev l2).

        Definition good (st : ast) : Prop := exists m b, bst st = Some (m, b) /\ (b <= sumw es + 2 * delta)%Q.

        Definition waiting (st : ast) (y : nat) (dd : dir) (l1 l2 : Q) : Prop :=
          In (y, l1, dd) (que st) /\ lab st dd y = Some l1 /\
          (exists c2, lab st (opp dd) y = Some c2 /\ (c2 <= l2)%Q) /\
          (0 <= l2)%Q /\ (l1 + l2 <= sumw es)%Q /\
          (forall e, In e (adj (opp dd) y) ->
             exists c', lab st (opp dd) (tgt (opp dd) e) = Some c' /\ (c' <= l2 + w e)%Q) /\
          (forall d, flg st d = false).
        Definition phaseB (st : ast) : Prop :=
          good st \/ (bst st <> None /\ exists y dd l1 l2, waiting st y dd l1 l2).

        Lemma sumw_rev l : (sumw (rev l) == sumw l)%Q.
        Proof.
          induction l as [|e l IH]; [reflexivity|].
          change (rev (e :: l)) with (rev l ++ [e]). rewrite sumw_app, sumw_single, IH. simpl. ring.
        Qed.

        (** the first not expanded node on a walk *)
        Lemma first_pending st : inv st -> inv2 st -> inv2_dn st -> bst st = None ->
          forall d v l, walk d v l ->
          (dn st d v = true /\ exists c, lab st d v = Some c /\ (c <= sumw l)%Q) \/
          (exists k1 k2 y c, l = k1 ++ k2 /\ walk d y k1 /\ In (y, c, d) (que st) /\
             lab st d y = Some c /\ (c <= sumw k1)%Q).
        Proof.
          intros H H2 Hd Hn.
          assert (Hcase : forall d v c l, walk d v l -> lab st d v = Some c -> (c <= sumw l)%Q ->
            (dn st d v = true /\ exists c, lab st d v = Some c /\ (c <= sumw l)%Q) \/
            (exists k1 k2 y c, l = k1 ++ k2 /\ walk d y k1 /\ In (y, c, d) (que st) /\
               lab st d y = Some c /\ (c <= sumw k1)%Q)).
          { intros d v c l Hw E Hle. destruct (j_lab _ H2 d v c (or_intror Hn) E) as [A|[A|(m & b & Eb & A)]].
            - right. exists l, [], v, c. rewrite app_nil_r. auto.
            - left. eauto.
            - congruence. }
          intros d v l Hw. induction Hw as [|u l e Hw IH He'].
          - apply (Hcase _ _ 0%Q); [constructor|apply (i_root _ H d)|apply Qle_refl].
          - destruct IH as [(Hu & cu & Eu & Hle)|(k1 & k2 & y & c & -> & A)].
            + destruct (Hd d u Hu e He') as (cu' & c & Eu' & Et & Hc). assert (cu' = cu) by congruence. subst cu'.
              apply (Hcase _ _ c); auto; [econstructor; eauto|]. rewrite sumw_app, sumw_single. lra.
            + right. exists k1, (k2 ++ [e]), y, c. rewrite app_assoc. auto.
        Qed.

        (** before the first meeting: either both sides still have a cheap pending
            node, or one node connects the expanded part of one side with the queue of
            the other one *)
        Lemma frontier st : inv st -> inv2 st -> inv2_dn st -> bst st = None ->
          (exists x cf y cb, In (x, cf, FWD) (que st) /\ In (y, cb, BWD) (que st) /\ (cf + cb <= sumw es)%Q) \/
          (exists y dd l1 c2, In (y, l1, dd) (que st) /\ lab st dd y = Some l1 /\
             dn st (opp dd) y = true /\ lab st (opp dd) y = Some c2 /\ (l1 + c2 <= sumw es)%Q).
        Proof.
          intros H H2 Hd Hn.
          destruct (es_splits es []) as (t & Ht & Ht'); [now rewrite app_nil_r|]. simpl in Ht'.
          destruct (first_pending st H H2 Hd Hn FWD t es Ht) as [(Dt & ct & Et & Lt)|(k1 & k2 & y & c & Ees & Wy & Qy & Ey & Ly)].
          - right. exists t, BWD, 0%Q, ct. apply walk_nil_inv in Ht'. destruct (i_root _ H BWD) as [Eb _].
            rewrite <- Ht' in Eb. simpl. split; [|split; [auto|split; [auto|split; [auto|lra]]]].
            destruct (j_lab _ H2 BWD t 0%Q (or_intror Hn) Eb) as [A|[A|(m & b & Ebst & A)]]; auto; [|congruence].
            destruct (j_both _ H2 t Dt A) as (m & b & _ & _ & Ebst & _). congruence.
          - destruct (es_splits k1 k2 Ees) as (y' & Wy' & Wb). assert (y' = y) by exact (walk_fun _ _ _ _ Wy' Wy). subst y'.
            assert (Hsum : (sumw es == sumw k1 + sumw (rev k2))%Q) by (rewrite Ees, sumw_app, sumw_rev; reflexivity).
            destruct (first_pending st H H2 Hd Hn BWD y (rev k2) Wb) as [(Dy & cy & Eyb & Lyb)|(j1 & j2 & z & cz & Ej & Wz & Qz & Ez & Lz)].
            + right. exists y, FWD, c, cy. simpl. repeat (split; auto). lra.
            + left. exists y, c, z, cz. split; auto. split; auto.
              assert ((sumw (rev k2) == sumw j1 + sumw j2)%Q) by (rewrite Ej; apply sumw_app).
              assert (0 <= sumw j2)%Q; [|lra].
              clear - Wb Ej w_nonneg. rewrite Ej in Wb. clear Ej. remember (j1 ++ j2) as l eqn:E. revert j1 j2 E.
              induction Wb as [|u l e Hw IH He]; intros j1 j2 E.
              * symmetry in E. apply app_eq_nil in E. destruct E as [-> ->]. apply Qle_refl.
              * destruct j2 as [|e' j2 _] using rev_ind; [apply Qle_refl|].
                rewrite app_assoc in E. apply app_inj_tail in E. destruct E as [-> ->].
                rewrite sumw_app, sumw_single. pose proof (w_nonneg _ _ _ He). specialize (IH _ _ eq_refl). lra.
        Qed.

        (** relaxing edges of an evaluated node *)
        Lemma relax1_phaseB d v c cv st e m b :
          In e (adj d v) -> lab st d v = Some cv -> (cv == c)%Q -> bst st = Some (m, b) ->
          (forall x, lab st (opp d) v = Some x -> (b <= cv + x)%Q) ->
          phaseB st -> phaseB (relax1 d v c st e).
        Proof.
          intros He E Hc Eb Hev [(m' & b' & Eb' & Hg)|(Hn & y & dd & l1 & l2 & Wq & Wl & (c2 & W2 & W2') & W0 & Ws & Wr & Wf)].
          - left. exists m', b'. now rewrite relax1_bst.
          - assert (Hkeep : lab (relax1 d v c st e) dd y = Some l1 -> phaseB (relax1 d v c st e)).
            { intros Hl. right. rewrite relax1_bst. split; auto. exists y, dd, l1, l2. unfold waiting.
              split; [now apply relax1_que|]. split; auto. rewrite relax1_flg. split; [|split; [auto|split; [auto|split; auto]]].
              - destruct (relax1_mono d v c st e _ _ _ W2) as (c3 & E3 & L3). exists c3. split; auto. lra.
              - intros e' He'. destruct (Wr e' He') as (c' & E' & L').
                destruct (relax1_mono d v c st e _ _ _ E') as (c3 & E3 & L3). exists c3. split; auto. lra. }
            destruct (relax1_lab d v c st e dd y) as [Hl|(-> & -> & Hl & Hlt)].
            + apply Hkeep. congruence.
            + left. specialize (Hlt _ Wl).
              destruct (Wr e (mirror _ _ _ He)) as (c' & E' & L').
              rewrite (near _ _ _ He) in E'. specialize (Hev _ E').
              exists m, b. rewrite relax1_bst. split; auto. lra.
        Qed.

        Lemma relax_phaseB d v c cv m b ls : forall st,
          inv st -> (forall e, In e ls -> In e (adj d v)) -> lab st d v = Some cv -> (cv == c)%Q -> bst st = Some (m, b) ->
          (forall x, lab st (opp d) v = Some x -> (b <= cv + x)%Q) ->
          phaseB st -> phaseB (fold_left (relax1 d v c) ls st).
        Proof.
          induction ls as [|e ls IH]; intros st H Hin E Hc Eb Hev HB; simpl; auto.
          assert (He : In e (adj d v)) by (apply Hin; now left).
          apply IH; auto.
          - eapply relax1_inv; eauto.
          - intros e' He'. apply Hin. now right.
          - now apply relax1_self.
          - now rewrite relax1_bst.
          - intros x Hx. apply Hev. destruct (relax1_lab d v c st e (opp d) v) as [<-|(Hd & _)]; auto.
            now apply opp_neq in Hd.
          - eapply relax1_phaseB; eauto.
        Qed.

        Lemma total_dir st d v a : lab st d v = Some a -> forall b, lab st (opp d) v = Some b ->
          exists t, total st v = Some t /\ (t == a + b)%Q.
        Proof.
          intros Ea b Eb. unfold total. destruct d; simpl in Eb; rewrite Ea, Eb; eexists; split; eauto; ring.
        Qed.

        (** iterations after the first meeting *)
        Lemma iterate_phaseB st v c d q' : inv st -> bst st <> None -> phaseB st ->
          near_min (que st) v c d q' -> phaseB (iterate st v c d q') /\ bst (iterate st v c d q') <> None.
        Proof.
          intros H Hn HB [Hp Hmin]. destruct (pops_in _ _ _ _ _ Hp) as (Hin & Hs & Hq).
          destruct (bst st) as [[m b]|] eqn:Eb; [clear Hn|congruence].
          assert (Hbst : forall ls st', bst (fold_left (relax1 d v c) ls st') = bst st').
          { induction ls as [|e ls IH]; intros st'; simpl; auto. rewrite IH. apply relax1_bst. }
          destruct (new_best_le (set_que st q') d v m b Eb) as (m' & b' & E' & Hle' & Ht').
          destruct (iterate_cases st v c d q' H Hp) as (cv & E & Hle & [[Hlt ->]|[(Hc & m0 & b0 & Eb0 & Hb & ->)|(Hc & _ & ->)]]).
          - cbn [set_que bst]. split; [|congruence].
            destruct HB as [HB|(_ & y & dd & l1 & l2 & Wq & W)]; [now left|].
            right. cbn [set_que bst]. split; [congruence|]. exists y, dd, l1, l2.
            destruct (Hq _ Wq) as [Hx|Hx]; [|split; auto].
            injection Hx as -> -> ->. destruct W as (W & _). rewrite E in W. injection W as ->. exfalso. lra.
          - rewrite Eb in Eb0. injection Eb0 as <- <-. cbn [cut set_que bst]. split; [|congruence]. left.
            destruct HB as [HB|(_ & y & dd & l1 & l2 & Wq & W)]; [exact HB|].
            destruct W as (Wl & _ & W0 & Ws & _). exists m, b. cbn [cut set_que bst]. split; auto.
            destruct (Hq _ Wq) as [Hx|Hx].
            + injection Hx as -> -> ->. lra.
            + specialize (Hmin _ Hx). unfold e_cost in Hmin. simpl in Hmin. lra.
          - rewrite Hbst. cbn [enter bst]. split; [|congruence].
            apply relax_phaseB with cv m' b'; auto.
            + eapply enter_inv; eauto. apply set_que_inv; auto.
            + intros x Ex. destruct (total_dir st d v cv E x Ex) as (t & Et & Htt).
              specialize (Ht' t Et). lra.
            + destruct HB as [(m0 & b0 & Eb0 & Hg)|(_ & y & dd & l1 & l2 & Wq & W)].
              * left. exists m', b'. cbn [enter bst]. split; auto. rewrite Eb in Eb0. injection Eb0 as <- <-. lra.
              * destruct (Hq _ Wq) as [Hx|Hx].
                -- injection Hx as -> -> ->. destruct W as (Wl & (c2 & W2 & W2') & W0 & Ws & _).
                   left. exists m', b'. cbn [enter bst]. split; auto.
                   destruct (total_dir st d v c Wl c2 W2) as (t & Et & Htt). specialize (Ht' t Et). lra.
                -- right. cbn [enter bst]. split; [congruence|]. exists y, dd, l1, l2. split; auto.
        Qed.

        (** the iteration of the first meeting *)
        Lemma iterate_meeting st v c d q' : inv st -> inv2 st -> inv2_dn st -> inv3 st -> bst st = None ->
          near_min (que st) v c d q' -> bst (iterate st v c d q') <> None -> phaseB (iterate st v c d q').
        Proof.
          intros H H2 Hd H3 Hn [Hp Hmin] Hb. destruct (pops_in _ _ _ _ _ Hp) as (Hin & Hs & Hq).
          assert (Hbst : forall ls st', bst (fold_left (relax1 d v c) ls st') = bst st').
          { induction ls as [|e ls IH]; intros st'; simpl; auto. rewrite IH. apply relax1_bst. }
          destruct (iterate_cases st v c d q' H Hp) as (cv & E & Hle & [[Hlt Ei]|[(Hc & m0 & b0 & Eb0 & _)|(Hc & _ & Ei)]]);
            [rewrite Ei in Hb; cbn [set_que bst] in Hb; congruence|congruence|]. rewrite Ei in *. clear Ei.
          rewrite Hbst in Hb. cbn [enter bst] in Hb.
          unfold new_best in Hb. cbn [set_que bst] in Hb. rewrite Hn in Hb.
          destruct (meets (set_que st q') d v) eqn:Em; [|congruence].
          unfold meets in Em. rewrite plain in Em. cbn [set_que vis] in Em.
          destruct (k_vis _ H3 _ _ Em) as (co & Eo & Lo).
          destruct (total_dir st d v cv E co Eo) as (t & Et & Htt).
          assert (Enb : new_best (set_que st q') d v = Some (v, t)).
          { unfold new_best. cbn [set_que bst]. rewrite Hn. unfold meets. rewrite plain. cbn [set_que vis]. rewrite Em.
            change (total (set_que st q') v) with (total st v). now rewrite Et. }
          apply relax_phaseB with cv v t; auto.
          - eapply enter_inv; eauto. apply set_que_inv; auto.
          - intros x Ex. cbn [enter set_que lab] in Ex. rewrite Eo in Ex. injection Ex as <-. lra.
          - destruct (frontier st H H2 Hd Hn) as [(x & cf & y & cb & Qx & Qy & Hs')|(y & dd & l1 & c2 & Qy & Ey & Dy & Ey2 & Hs')].
            + left. exists v, t. cbn [enter bst]. split; auto.
              pose proof (k_que _ H3 _ _ _ Qx). pose proof (k_que _ H3 _ _ _ Qy).
              assert (Hge : forall z cz dz, In (z, cz, dz) (que st) -> (c <= cz + delta)%Q).
              { intros z cz dz Hz. destruct (Hq _ Hz) as [Hx|Hx].
                - injection Hx as -> -> ->. lra.
                - specialize (Hmin _ Hx). exact Hmin. }
              pose proof (Hge _ _ _ Qx). pose proof (Hge _ _ _ Qy).
              destruct (Qlt_le_dec (mx st) c); lra.
            + destruct (Hq _ Qy) as [Hx|Hx].
              * injection Hx as -> -> ->. left. exists v, t. cbn [enter bst]. split; auto.
                rewrite Eo in Ey2. injection Ey2 as <-. lra.
              * right. cbn [enter bst]. split; [congruence|]. exists y, dd, l1, c2.
                unfold waiting. cbn [enter set_que que lab flg].
                split; auto. split; auto. split; [exists c2; split; auto; apply Qle_refl|].
                split; [eapply lab_nonneg; eauto|]. split; auto. split.
                -- intros e He. destruct (Hd _ _ Dy e He) as (cu & c' & Eu & Et' & L').
                   rewrite Ey2 in Eu. injection Eu as <-. eauto.
                -- intros d'. now apply (j_flag _ H2).
        Qed.

        Lemma arun_phase st st' : arun near_min st st' ->
          inv st -> inv2 st -> inv2_dn st -> inv3 st -> (bst st <> None -> phaseB st) ->
          (bst st' <> None -> phaseB st') /\ ended st'.
        Proof.
          induction 1 as [st He|st v c d q' st' Hp Hr IH]; intros H H2 Hd H3 HB; auto.
          destruct (iterate_inv2 st v c d q' H H2 Hd (proj1 Hp)).
          apply IH; auto.
          - apply iterate_inv; auto. apply Hp.
          - now apply iterate_inv3.
          - intros Hn. destruct (bst st) eqn:Eb.
            + apply iterate_phaseB; auto; try (apply HB); congruence.
            + now apply iterate_meeting.
        Qed.

        Theorem run_plain_optimal st : arun near_min init st ->
          exists m b, bst st = Some (m, b) /\ (b <= sumw es + 2 * delta)%Q.
        Proof.
          intros Hr.
          assert (Hpop : forall q v c d q', near_min q v c d q' -> pops q v c d q') by (intros; now destruct H).
          destruct (es_splits es []) as (t & Ht & Ht'); [now rewrite app_nil_r|].
          pose proof (run_found near_min Hpop st t _ _ Hr Ht Ht') as Hn.
          destruct (arun_phase _ _ Hr init_inv (proj1 init_inv2) (proj2 init_inv2) init_inv3) as [HB He];
            [intros Hx; now contradict Hx|].
          destruct (HB Hn) as [Hg|(_ & y & dd & l1 & l2 & Wq & _ & _ & _ & _ & _ & Wf)]; [exact Hg|].
          destruct He as [He|He].
          - rewrite He in Wq. destruct Wq.
          - specialize (He FWD). rewrite Wf in He. discriminate.
        Qed.
      End Plain.
    End Delta.

    (** *** Termination, for arbitrary queues *)
    Inductive asteps (P : list entry -> nat -> Q -> dir -> list entry -> Prop) : nat -> ast -> ast -> Prop :=
    | asteps_0 st : asteps P 0 st st
    | asteps_S k st v c d q' st' :
        P (que st) v c d q' -> asteps P k (iterate st v c d q') st' -> asteps P (S k) st st'.

    Lemma relax1_count d u c st e :
      length (que (relax1 d u c st e)) + length (log st) <= length (que st) + length (log (relax1 d u c st e)).
    Proof.
      unfold relax1. destruct (match lab st d (tgt d e) with None => true | Some old => qltb (c + w e) old end); auto.
      cbn [que log]. destruct (ch || _); simpl; lia.
    Qed.
    Lemma relax_count d u c es : forall st,
      length (que (fold_left (relax1 d u c) es st)) + length (log st) <=
      length (que st) + length (log (fold_left (relax1 d u c) es st)).
    Proof.
      induction es as [|e es IH]; intros st; simpl; auto.
      pose proof (relax1_count d u c st e). specialize (IH (relax1 d u c st e)). lia.
    Qed.
    Lemma iterate_count st v c d q' : inv st -> pops (que st) v c d q' ->
      S (length (que (iterate st v c d q'))) + length (log st) <= length (que st) + length (log (iterate st v c d q')).
    Proof.
      intros H Hp. pose proof (Permutation_length Hp) as Hl. simpl in Hl.
      destruct (iterate_cases st v c d q' H Hp) as (cv & E & Hle & [[Hlt ->]|[(Hc & m & b & Eb & Hb & ->)|(Hc & _ & ->)]]).
      - cbn [set_que que log]. lia.
      - cbn [cut set_que que log]. lia.
      - pose proof (relax_count d v c (adj d v) (enter (set_que st q') v c d)) as Hr.
        cbn [enter set_que que log] in Hr. lia.
    Qed.
    Lemma asteps_count (P : list entry -> nat -> Q -> dir -> list entry -> Prop) k st st' : (forall q v c d q', P q v c d q' -> pops q v c d q') ->
      asteps P k st st' -> inv st ->
      inv st' /\ k + length (que st') + length (log st) <= length (que st) + length (log st').
    Proof.
      intros HP. induction 1 as [st|k st v c d q' st' Hp Hs IH]; intros H; [split; auto; lia|].
      apply HP in Hp. pose proof (iterate_count st v c d q' H Hp).
      destruct (IH (iterate_inv _ _ _ _ _ H Hp)) as [A B]. split; auto. lia.
    Qed.

    (** all edge lists shorter than [k] *)
    Fixpoint lists_of (m k : nat) : list (list nat) :=
      match k with
      | 0 => []
      | S k => [] :: flat_map (fun e => map (cons e) (lists_of m k)) (seq 0 m)
      end.
    Lemma lists_of_in m : forall k l, length l < k -> (forall e, In e l -> e < m) -> In l (lists_of m k).
    Proof.
      induction k as [|k IH]; intros l Hl Hin; [lia|]. simpl. destruct l as [|e l]; [now left|right].
      apply in_flat_map. exists e. split.
      - apply in_seq. split; [lia|]. simpl. apply Hin. now left.
      - apply in_map. apply IH; [simpl in Hl; lia|]. intros x Hx. apply Hin. now right.
    Qed.

    Definition steps_bound (n m : nat) : nat := 2 + 2 * length (lists_of m n).

    Theorem asteps_bound (P : list entry -> nat -> Q -> dir -> list entry -> Prop) n m k st : (forall q v c d q', P q v c d q' -> pops q v c d q') ->
      (forall d u e, In e (adj d u) -> e < m /\ tgt d e < n) -> (forall d, root d < n) ->
      asteps P k init st -> k + length (que st) <= steps_bound n m.
    Proof.
      intros HP Hm Hr Hs. destruct (asteps_count P k _ _ HP Hs init_inv) as [H Hk]. simpl in Hk.
      assert (Hw : forall d v l, walk d v l -> v < n /\ forall e, In e l -> e < m).
      { induction 1 as [|u l e Hw [IH1 IH2] He]; [split; auto; intros e []|].
        split; [apply (Hm _ _ _ He)|]. intros x Hx. apply in_app_or in Hx. destruct Hx as [Hx|[<-|[]]]; auto.
        apply (Hm _ _ _ He). }
      assert (Hlog : length (log st) <= length (list_prod [FWD; BWD] (lists_of m n))).
      { apply NoDup_incl_length; [apply (i_nodup _ H)|]. intros [d l] Hin.
        apply in_prod; [destruct d; simpl; auto|].
        destruct (i_log _ H _ _ Hin) as (x & cx & Hx & _). apply lists_of_in; [|apply (Hw _ _ _ Hx)].
        destruct (i_lsimple _ H _ _ Hin) as (ns & N1 & N2 & N3).
        assert (length ns <= length (seq 0 n)).
        { apply NoDup_incl_length; auto. intros y Hy. destruct (N3 y Hy) as (l1 & l2 & _ & Hwy).
          apply in_seq. split; [lia|]. simpl. apply (Hw _ _ _ Hwy). }
        rewrite seq_length in *. lia. }
      rewrite prod_length in Hlog. unfold steps_bound. simpl in Hlog. lia.
    Qed.

    Lemma lists_of_length m : forall k, length (lists_of m (S k)) = 1 + m * length (lists_of m k).
    Proof.
      intros k. simpl. f_equal. rewrite <- (seq_length m 0) at 2. generalize (seq 0 m). induction l as [|e l IH]; auto.
      simpl. rewrite app_length, map_length, IH. reflexivity.
    Qed.

    (** *** Exact queues: every node is expanded at most once per direction *)
    Section Exact.
      Definition distinct_costs (q : list entry) : Prop := forall v c1 c2 d l,
        Permutation q ((v, c1, d) :: (v, c2, d) :: l) -> ~ (c1 == c2)%Q.

      Record inv4 (st : ast) : Prop := mkInv4 {
        x_dn : forall d v cv c, dn st d v = true -> lab st d v = Some cv -> In (v, c, d) (que st) -> (cv < c)%Q;
        x_dist : distinct_costs (que st);
      }.

      Lemma distinct_pop q v c d q' : pops q v c d q' -> distinct_costs q -> distinct_costs q'.
      Proof.
        intros Hp H v0 c1 c2 d0 l Hq. apply (H v0 c1 c2 d0 ((v, c, d) :: l)). unfold pops in Hp. rewrite Hp, Hq.
        rewrite perm_swap. apply perm_skip. apply perm_swap.
      Qed.

      Lemma distinct_push q v c d : distinct_costs q -> (forall c', In (v, c', d) q -> (c < c')%Q) ->
        distinct_costs ((v, c, d) :: q).
      Proof.
        intros H Hlt v0 c1 c2 d0 l Hq.
        assert (Hin : In (v, c, d) ((v0, c1, d0) :: (v0, c2, d0) :: l)) by (apply (Permutation_in _ Hq); now left).
        destruct Hin as [E|[E|Hin]].
        - injection E as -> -> ->. apply Permutation_cons_inv in Hq.
          assert (Hx : In (v, c2, d) q) by (apply (Permutation_in _ (Permutation_sym Hq)); now left).
          specialize (Hlt _ Hx). lra.
        - injection E as -> -> ->. rewrite perm_swap in Hq. apply Permutation_cons_inv in Hq.
          assert (Hx : In (v, c1, d) q) by (apply (Permutation_in _ (Permutation_sym Hq)); now left).
          specialize (Hlt _ Hx). lra.
        - apply in_split in Hin. destruct Hin as (l1 & l2 & ->).
          apply (H v0 c1 c2 d0 (l1 ++ l2)). apply Permutation_cons_inv with (v, c, d). rewrite Hq.
          change ((v0, c1, d0) :: (v0, c2, d0) :: l1 ++ (v, c, d) :: l2)
            with (([(v0, c1, d0); (v0, c2, d0)] ++ l1) ++ (v, c, d) :: l2).
          rewrite <- Permutation_middle. reflexivity.
      Qed.

      Definition cost_ok (st : ast) (c : Q) : Prop :=
        forall d v, dn st d v = true -> exists cv, lab st d v = Some cv /\ (cv <= c)%Q.

      Lemma relax1_dn_same d u c st e : In e (adj d u) -> cost_ok st c ->
        dn (relax1 d u c st e) = dn st \/ (forall d' v, dn (relax1 d u c st e) d' v = dn st d' v).
      Proof.
        intros He Hok. right. intros d' v. unfold relax1.
        destruct (match lab st d (tgt d e) with None => true | Some old => qltb (c + w e) old end) eqn:E; auto.
        cbn [dn]. destruct (up2_cases (dn st) d (tgt d e) false d' v) as [(<- & <- & ->)|[_ ->]]; auto.
        destruct (dn st d (tgt d e)) eqn:Ed; auto. destruct (Hok _ _ Ed) as (cv & Ev & Hle).
        rewrite Ev in E. apply qltb_lt in E. pose proof (w_nonneg _ _ _ He). lra.
      Qed.

      Lemma relax1_inv4 d u c st e : In e (adj d u) -> inv st -> cost_ok st c -> inv4 st ->
        inv4 (relax1 d u c st e) /\ cost_ok (relax1 d u c st e) c /\
        (forall d' v, dn (relax1 d u c st e) d' v = dn st d' v) /\
        length (que (relax1 d u c st e)) <= S (length (que st)).
      Proof.
        intros He Hi Hok H.
        assert (Hdn : forall d' v, dn (relax1 d u c st e) d' v = dn st d' v).
        { destruct (relax1_dn_same d u c st e He Hok) as [-> | Hx]; auto. }
        split; [|split; [|split; auto]].
        - constructor.
          + intros d' v cv c0 Hd El Hin. destruct (relax1_dn _ _ _ _ _ _ _ Hd) as [Hd' Hl]. rewrite Hl in El.
            unfold relax1 in Hin, Hd. destruct (match lab st d (tgt d e) with None => true | Some old => qltb (c + w e) old end).
            * cbn [que dn] in Hin, Hd.
              assert (Hin' : In (v, c0, d') (que st) \/ (v, c0, d') = (tgt d e, (c + w e)%Q, d)).
              { destruct (ch || _); auto. destruct Hin as [<-|Hin]; auto. }
              destruct Hin' as [Hin'|E]; [now apply (x_dn _ H d' v)|].
              injection E as -> -> ->. rewrite up2_eq in Hd. discriminate.
            * now apply (x_dn _ H d' v).
          + unfold relax1. destruct (match lab st d (tgt d e) with None => true | Some old => qltb (c + w e) old end) eqn:E;
              [|apply (x_dist _ H)]. cbn [que].
            destruct (ch || _); [|apply (x_dist _ H)]. apply distinct_push; [apply (x_dist _ H)|].
            intros c' Hin. destruct (i_que _ Hi _ _ _ Hin) as (cl & El & Hle). rewrite El in E. apply qltb_lt in E. lra.
        - intros d' v Hd. destruct (relax1_dn _ _ _ _ _ _ _ Hd) as [Hd' ->]. auto.
        - unfold relax1. destruct (match lab st d (tgt d e) with None => true | Some old => qltb (c + w e) old end); auto.
          cbn [que]. destruct (ch || _); simpl; auto.
      Qed.

      Lemma relax_inv4 d u c cu es : forall st, (forall e, In e es -> In e (adj d u)) ->
        lab st d u = Some cu -> (cu == c)%Q -> inv st -> cost_ok st c -> inv4 st ->
        inv4 (fold_left (relax1 d u c) es st) /\
        (forall d' v, dn (fold_left (relax1 d u c) es st) d' v = dn st d' v) /\
        length (que (fold_left (relax1 d u c) es st)) <= length es + length (que st).
      Proof.
        induction es as [|e es IH]; intros st Hin E Hc Hi Hok H; simpl; [auto|].
        assert (He : In e (adj d u)) by (apply Hin; now left).
        destruct (relax1_inv4 d u c st e He Hi Hok H) as (A & B & C & D).
        destruct (IH (relax1 d u c st e)) as (A' & C' & D'); auto.
        - intros e' He'. apply Hin. now right.
        - now apply relax1_self.
        - eapply relax1_inv; eauto.
        - split; auto. split; [|lia]. intros d' v. now rewrite C', C.
      Qed.

      (** edges of nodes that are not expanded yet *)
      Definition open_edges (n : nat) (f : dir -> nat -> bool) : nat :=
        list_sum (map (fun p => if f (fst p) (snd p) then 0 else length (adj (fst p) (snd p)))
          (list_prod [FWD; BWD] (seq 0 n))).

      Lemma list_sum_update (A : Type) (f g : A -> nat) x k : forall l, NoDup l -> In x l ->
        (forall y, y <> x -> g y = f y) -> g x + k = f x ->
        list_sum (map g l) + k = list_sum (map f l).
      Proof.
        induction l as [|y l IH]; intros Hnd Hi Hne Hx; [destruct Hi|].
        inversion Hnd; subst. destruct Hi as [<-|Hin]; simpl.
        - rewrite (map_ext_in g f) by (intros z Hz; apply Hne; congruence). lia.
        - rewrite (Hne y) by congruence. specialize (IH H2 Hin Hne Hx). lia.
      Qed.

      Lemma NoDup_list_prod (A B : Type) (l : list A) (l' : list B) : NoDup l -> NoDup l' -> NoDup (list_prod l l').
      Proof.
        induction l as [|a l IH]; intros H H'; simpl; [constructor|]. inversion H; subst.
        assert (Hd : forall k1 k2 : list (A * B), NoDup k1 -> NoDup k2 -> (forall x, In x k1 -> ~ In x k2) -> NoDup (k1 ++ k2)).
        { induction k1 as [|x k1 IHk]; intros k2 N1 N2 Hx; simpl; auto. inversion N1; subst. constructor.
          - intros Hin. apply in_app_or in Hin. destruct Hin as [Hin|Hin]; auto. apply (Hx x); simpl; auto.
          - apply IHk; auto. intros y Hy. apply Hx. now right. }
        apply Hd; auto.
        - apply FinFun.Injective_map_NoDup; auto. intros x y E. congruence.
        - intros [x y] Hin Hin'. apply in_map_iff in Hin. destruct Hin as (z & E & _). injection E as <- <-.
          apply in_prod_iff in Hin'. tauto.
      Qed.

      Lemma open_edges_close n f g d v : v < n -> f d v = false -> g d v = true ->
        (forall d' v', (d <> d' \/ v <> v') -> g d' v' = f d' v') ->
        open_edges n g + length (adj d v) = open_edges n f.
      Proof.
        intros Hv Hf Hg Hne. unfold open_edges.
        apply (list_sum_update _ (fun p => if f (fst p) (snd p) then 0 else length (adj (fst p) (snd p)))
          (fun p => if g (fst p) (snd p) then 0 else length (adj (fst p) (snd p))) (d, v)).
        - apply NoDup_list_prod; [|apply seq_NoDup]. constructor; [intros [E|[]]; discriminate|].
          constructor; [intros []|constructor].
        - apply in_prod; [destruct d; simpl; auto|apply in_seq; lia].
        - intros [d' v'] Hn. cbn [fst snd]. rewrite Hne; [reflexivity|].
          destruct (dir_eqb_spec d d') as [<-|Hd]; [|now left].
          right. intros <-. now apply Hn.
        - cbn [fst snd]. rewrite Hf, Hg. lia.
      Qed.

      Lemma open_edges_ext n f g : (forall d v, g d v = f d v) -> open_edges n g = open_edges n f.
      Proof. intros H. unfold open_edges. f_equal. apply map_ext. intros [d v]. now rewrite H. Qed.

      Definition exact_min := near_min 0%Q.

      Lemma iterate_exact n st v c d q' : inv st -> inv2 st -> inv3 0%Q st -> inv4 st -> v < n ->
        exact_min (que st) v c d q' ->
        inv4 (iterate st v c d q') /\
        S (length (que (iterate st v c d q')) + open_edges n (dn (iterate st v c d q'))) <=
        length (que st) + open_edges n (dn st).
      Proof.
        intros H H2 H3 H4 Hv [Hp Hmin]. destruct (pops_in _ _ _ _ _ Hp) as (Hin & Hs & Hq).
        pose proof (Permutation_length Hp) as Hl. simpl in Hl.
        assert (Hd' : distinct_costs q') by (eapply distinct_pop; [eauto|apply (x_dist _ H4)]).
        destruct (iterate_cases st v c d q' H Hp) as (cv & E & Hle & [[Hlt ->]|[(Hc & m & b & Eb & Hb & ->)|(Hc & _ & ->)]]).
        - split; [|cbn [set_que que dn]; lia]. constructor; cbn [set_que que dn lab]; auto.
          intros d' v' cv' c' Hd El Hi. apply (x_dn _ H4 d' v'); auto.
        - split; [|cbn [cut set_que que dn]; lia]. constructor; cbn [cut set_que que dn lab]; auto.
          intros d' v' cv' c' Hd El Hi. apply (x_dn _ H4 d' v'); auto.
        - pose proof (k_que _ _ H3 _ _ _ Hin) as Hmx.
          assert (Hnd : dn st d v = false).
          { destruct (dn st d v) eqn:Ed; auto. pose proof (x_dn _ H4 _ _ _ _ Ed E Hin). lra. }
          set (st1 := enter (set_que st q') v c d).
          assert (Hi : inv st1) by (eapply enter_inv; eauto; apply set_que_inv; auto).
          assert (Hok : cost_ok st1 c).
          { intros d' v' Hd. unfold st1 in *. cbn [enter set_que dn lab] in *.
            destruct (up2_cases (dn st) d v true d' v') as [(<- & <- & _)|[Hn Ed]].
            - exists cv. split; [auto|lra].
            - rewrite Ed in Hd. apply (j_vis _ H2) in Hd. destruct (k_vis _ _ H3 _ _ Hd) as (c0 & E0 & L0).
              exists c0. split; [auto|lra]. }
          assert (H41 : inv4 st1).
          { constructor; unfold st1; cbn [enter set_que que dn lab]; auto.
            intros d' v' cv' c' Hd El Hi'. destruct (up2_cases (dn st) d v true d' v') as [(<- & <- & _)|[Hn Ed]].
            - rewrite E in El. injection El as <-. pose proof (Hmin _ Hi') as Hm. unfold e_cost in Hm. simpl in Hm.
              apply in_split in Hi'. destruct Hi' as (l1 & l2 & ->).
              assert (Hx : Permutation (que st) ((v, c, d) :: (v, c', d) :: l1 ++ l2)).
              { unfold pops in Hp. rewrite Hp. apply perm_skip. symmetry. apply Permutation_middle. }
              pose proof (x_dist _ H4 _ _ _ _ _ Hx) as Hy. destruct (Qlt_le_dec cv c') as [|Hz]; auto.
              exfalso. apply Hy. lra.
            - rewrite Ed in Hd. apply (x_dn _ H4 d' v'); auto. }
          destruct (relax_inv4 d v c cv (adj d v) st1 (fun e h => h) E Hc Hi Hok H41) as (A & B & C).
          split; auto. rewrite (open_edges_ext n _ _ B).
          assert (Hop : open_edges n (dn st1) + length (adj d v) = open_edges n (dn st)).
          { apply open_edges_close; auto.
            - unfold st1. cbn [enter dn]. apply up2_eq.
            - intros d' v' Hn. unfold st1. cbn [enter dn]. now rewrite up2_neq by auto. }
          assert (length (que st1) = length q') by reflexivity. lia.
      Qed.

      Lemma init_inv4 : inv4 init.
      Proof.
        constructor; [discriminate|]. intros v c1 c2 d l Hp.
        pose proof (Permutation_length Hp) as Hl. simpl in Hl. destruct l; [|discriminate].
        assert (A : In (root FWD, 0%Q, FWD) [(v, c1, d); (v, c2, d)]) by (apply (Permutation_in _ Hp); simpl; auto).
        assert (B : In (root BWD, 0%Q, BWD) [(v, c1, d); (v, c2, d)]) by (apply (Permutation_in _ Hp); simpl; auto).
        simpl in A, B. intuition congruence.
      Qed.

      Theorem asteps_exact n k st st' :
        (forall d u e, In e (adj d u) -> tgt d e < n) -> (forall d, root d < n) ->
        asteps exact_min k st st' -> inv st -> inv2 st -> inv2_dn st -> inv3 0%Q st -> inv4 st ->
        k + length (que st') + open_edges n (dn st') <= length (que st) + open_edges n (dn st).
      Proof.
        intros Ht Hr. induction 1 as [st|k st v c d q' st' Hp Hs IH]; intros H H2 Hd H3 H4; [lia|].
        assert (Hv : v < n).
        { destruct (pops_in _ _ _ _ _ (proj1 Hp)) as (Hin & _). destruct (i_que _ H _ _ _ Hin) as (cl & El & _).
          destruct (i_lab _ H _ _ _ El) as [Hw _]. destruct Hw; auto. eapply Ht; eauto. }
        destruct (iterate_exact n st v c d q' H H2 H3 H4 Hv Hp) as [A B].
        destruct (iterate_inv2 st v c d q' H H2 Hd (proj1 Hp)) as [C D].
        assert (IH' := IH (iterate_inv _ _ _ _ _ H (proj1 Hp)) C D).
        assert (inv3 0%Q (iterate st v c d q')) by (apply iterate_inv3; auto; apply Qle_refl).
        specialize (IH' H0 A). lia.
      Qed.
    End Exact.
  End Facts.
End Abs.
