(** Lemmas about generating metrics *)
From Coq Require Import String List Bool Arith ZArith QArith Lia.
From Verif Require Import Base F64 ModelApprox ModelUnits ModelConfig ModelGraph ModelBuild Lib ProofNodes ProofStages ProofBuild ProofGraph
  Spec ProofMetrics ProofProps SpecGenerate.
Import ListNotations.
Open Scope nat_scope.

(** positions *)
Lemma position_first ids id i : position id ids = Some i <-> first_at ids id i.
Proof.
  unfold first_at. revert i. induction ids as [|x t IH]; intros i; simpl.
  - split; [discriminate|]. intros [H _]. destruct i; discriminate.
  - destruct (String.eqb_spec x id) as [->|Hn].
    + split.
      * intros H. injection H as <-. split; [reflexivity|]. intros j Hj. lia.
      * intros [H1 H2]. destruct i as [|i]; auto. exfalso. apply (H2 0); [lia|reflexivity].
    + destruct (position id t) as [k|] eqn:E.
      * split.
        -- intros H. injection H as <-. destruct (proj1 (IH k) eq_refl) as [A B].
           split; auto. intros [|j] Hj; simpl; [congruence|]. apply B. lia.
        -- intros [H1 H2]. destruct i as [|i]; [simpl in H1; congruence|].
           assert (Hi : Some k = Some i). { apply IH. split; auto. intros j Hj. apply (H2 (S j)). lia. }
           congruence.
      * split; [discriminate|]. intros [H1 H2]. destruct i as [|i]; [simpl in H1; congruence|].
        assert (None = Some i); [|discriminate].
        apply IH. split; auto. intros j Hj. apply (H2 (S j)). lia.
Qed.
Lemma idx_of_first ids id i : idx_of ids id = Ok i <-> first_at ids id i.
Proof.
  rewrite <- position_first. unfold idx_of, expect.
  destruct (position id ids); split; intros H; inversion H; auto.
Qed.
Lemma first_lt ids id i : first_at ids id i -> i < length ids.
Proof. intros [H _]. apply nth_error_Some. congruence. Qed.
Lemma first_fun ids id i j : first_at ids id i -> first_at ids id j -> i = j.
Proof. rewrite <- !position_first. congruence. Qed.

(** the description in terms of the model's arrays *)
Definition desc_l (g : graph) : Prop :=
  length (ids_of g) = length (units_of g) /\ length (metrics g) = edge_count g FWD /\
  forall e m, nth_error (metrics g) e = Some m -> length m = length (ids_of g).
Lemma desc_described g : desc_l g <-> described g.
Proof.
  unfold desc_l, described, edge_metrics. split.
  - intros (H1 & H2 & H3). split; auto. split.
    + intros e. split.
      * intros He. rewrite <- H2 in He. apply idx_lt in He. exact He.
      * intros (ms & E). apply idx_ok in E. rewrite <- H2. apply nth_error_Some. congruence.
    + intros e ms E. apply idx_ok in E. rewrite <- H1. eauto.
  - intros (H1 & H2 & H3). split; auto. split.
    + assert (A : forall e, e < edge_count g FWD <-> e < length (metrics g)).
      { intros e. rewrite H2. split.
        - intros (ms & E). apply idx_ok in E. apply nth_error_Some. congruence.
        - intros He. apply idx_lt in He. exact He. }
      destruct (lt_eq_lt_dec (length (metrics g)) (edge_count g FWD)) as [[L|L]|L]; auto;
        apply A in L; lia.
    + intros e m E. rewrite H1. apply (H3 e). now apply idx_ok.
Qed.
Lemma metric_of_nth g e i : metric_of g e i =
  match nth_error (metrics g) e with Some m => nth_error m i | None => None end.
Proof. unfold metric_of, edge_metrics, idx. destruct (nth_error (metrics g) e); reflexivity. Qed.

Lemma adds_lemma g ms' u id (R : nat -> f64 -> Prop) :
  desc_l g -> length ms' = length (metrics g) ->
  (forall e m, nth_error (metrics g) e = Some m -> exists y, nth_error ms' e = Some (m ++ [y]) /\ R e y) ->
  let g' := push_metric_cfg (with_metrics g ms') u id in
  desc_l g' /\ adds_metric g g' u id R.
Proof.
  intros (H1 & H2 & H3) Hl H g'.
  assert (C : edge_count g' FWD = edge_count g FWD) by reflexivity.
  split.
  - unfold desc_l. rewrite C.
    unfold ids_of, units_of in *. cbn in *. rewrite !app_length. split; [simpl; lia|].
    split; [lia|]. intros e m' E.
    destruct (nth_error (metrics g) e) as [m|] eqn:Em.
    + destruct (H e m Em) as (y & Ey & _). rewrite E in Ey. injection Ey as ->.
      rewrite app_length. simpl. rewrite (H3 e m Em). reflexivity.
    + apply nth_error_None in Em. rewrite <- Hl in Em. apply nth_error_None in Em. congruence.
  - repeat split; auto.
    + intros e i Hi. rewrite !metric_of_nth. change (metrics g') with ms'.
      destruct (nth_error (metrics g) e) as [m|] eqn:Em.
      * destruct (H e m Em) as (y & -> & _). apply nth_error_app1. rewrite (H3 e m Em). exact Hi.
      * apply nth_error_None in Em. rewrite <- Hl in Em. apply nth_error_None in Em. now rewrite Em.
    + intros e He. rewrite <- H2 in He. destruct (idx_lt _ _ He) as (m & Em). apply idx_ok in Em.
      destruct (H e m Em) as (y & Ey & HR). exists y. split; auto.
      rewrite metric_of_nth. change (metrics g') with ms'. rewrite Ey.
      rewrite <- (H3 e m Em). rewrite nth_error_app2 by lia. now rewrite Nat.sub_diag.
Qed.

Lemma Forall2_nth_r {A B} (R : A -> B -> Prop) l l' i y :
  Forall2 R l l' -> nth_error l' i = Some y -> exists x, nth_error l i = Some x /\ R x y.
Proof.
  intros H. revert i. induction H; intros [|i] E; simpl in *; try discriminate; eauto.
  injection E as <-. eauto.
Qed.
Lemma try_convert_opt fu tu x y : try_convert fu tu x = Ok y <-> convert_opt fu tu x = Some y.
Proof. unfold try_convert. destruct (convert_opt fu tu x); split; intros H; inversion H; auto. Qed.
Lemma metric_named g id i e m x : first_at (ids_of g) id i ->
  nth_error (metrics g) e = Some m -> nth_error m i = Some x -> named g id e x.
Proof. intros H1 H2 H3. exists i. split; auto. now rewrite metric_of_nth, H2. Qed.

(** merging *)
Fixpoint lastw (ids : list string) (eid : string) (i : nat) (cols : list (nat * merge_cat)) : option nat :=
  match cols with
  | [] => None
  | (c, MIgnored) :: t => lastw ids eid i t
  | (c, MId id) :: t =>
      match lastw ids eid i t with
      | Some c' => Some c'
      | None => if String.eqb id eid then None
                else match position id ids with
                     | Some j => if j =? i then Some c else None
                     | None => None
                     end
      end
  end.
Lemma merge_cols_spec ids eid row e cols : forall ms ms' m,
  merge_cols ids eid row e ms cols = Ok ms' -> nth_error ms e = Some m ->
  length ms' = length ms /\ (forall e', e' <> e -> nth_error ms' e' = nth_error ms e') /\
  exists m', nth_error ms' e = Some m' /\ length m' = length m /\
    forall i, match lastw ids eid i cols with
              | Some c => exists t x, nth_error row c = Some t /\ tok_f64 t = Some x /\ nth_error m' i = Some x
              | None => nth_error m' i = nth_error m i
              end.
Proof.
  unfold merge_cols. induction cols as [|[c [id|]] cols IH]; intros ms ms' m H Em; cbn [foldM lastw fst snd] in *.
  - injection H as <-. repeat split; auto. exists m. auto.
  - apply bind_ok in H. destruct H as (ms1 & H1 & H).
    destruct (String.eqb id eid).
    + injection H1 as <-. destruct (IH _ _ _ H Em) as (A & B & m' & C & D & F).
      repeat split; auto. exists m'. repeat split; auto. intros i. specialize (F i).
      destruct (lastw ids eid i cols); auto.
    + apply bind_ok in H1. destruct H1 as (mi & Hi & H1). apply bind_ok in H1. destruct H1 as (t & Ht & H1).
      apply idx_ok in Ht.
      destruct (tok_f64 t) as [x|] eqn:Ex; [|discriminate].
      apply bind_ok in H1. destruct H1 as (old & Ho & H1). apply bind_ok in H1. destruct H1 as (new & Hn & H1).
      apply idx_ok in Ho. rewrite Em in Ho. injection Ho as <-.
      apply set_ok in Hn. destruct Hn as [Lm ->]. apply set_ok in H1. destruct H1 as [Le ->].
      destruct (IH _ _ (upd m mi x) H) as (A & B & m' & C & D & F).
      { now apply nth_error_upd_eq. }
      rewrite upd_length in A. rewrite upd_length in D. split; auto. split.
      { intros e' He'. rewrite B by auto. apply nth_error_upd_neq. auto. }
      exists m'. repeat split; auto. intros i. specialize (F i).
      destruct (lastw ids eid i cols); auto.
      unfold idx_of, expect in Hi. destruct (position id ids) as [j|]; [|discriminate]. injection Hi as ->.
      destruct (Nat.eqb_spec mi i) as [->|Hne].
      * exists t, x. repeat split; auto. rewrite F. now apply nth_error_upd_eq.
      * rewrite F. now apply nth_error_upd_neq.
  - apply bind_ok in H. destruct H as (ms1 & H1 & H). injection H1 as <-. eauto.
Qed.
Lemma lastw_some ids eid i cols c : lastw ids eid i cols = Some c ->
  exists pre id post, cols = pre ++ (c, MId id) :: post /\ id <> eid /\ first_at ids id i.
Proof.
  induction cols as [|[k [id|]] cols IH]; cbn [lastw]; [discriminate| |].
  - destruct (lastw ids eid i cols) as [c'|].
    + intros H. destruct (IH H) as (pre & id' & post & -> & A). exists ((k, MId id) :: pre), id', post.
      split; auto.
    + destruct (String.eqb_spec id eid); [discriminate|].
      destruct (position id ids) as [j|] eqn:Ep; [|discriminate].
      destruct (Nat.eqb_spec j i); [|discriminate]. subst j. intros H. injection H as <-.
      exists [], id, cols. split; [reflexivity|]. split; [auto|]. now apply position_first.
  - intros H. destruct (IH H) as (pre & id' & post & -> & A). exists ((k, MIgnored) :: pre), id', post.
    split; auto.
Qed.
Lemma lastw_last ids eid i pre c id post :
  id <> eid -> first_at ids id i -> lastw ids eid i post = None ->
  lastw ids eid i (pre ++ (c, MId id) :: post) = Some c.
Proof.
  intros H1 H2 H3. induction pre as [|[k [id'|]] pre IH]; cbn [app lastw].
  - rewrite H3. destruct (String.eqb_spec id eid); [congruence|].
    apply position_first in H2. now rewrite H2, Nat.eqb_refl.
  - now rewrite IH.
  - exact IH.
Qed.
Lemma nth_split_enum {A} (l : list A) c x : nth_error l c = Some x ->
  exists pre post, enumerate l = pre ++ (c, x) :: post /\
    forall k y, In (k, y) post -> c < k /\ nth_error l k = Some y.
Proof.
  intros H. assert (H' : nth_error (enumerate l) c = Some (c, x)) by now rewrite enumerate_nth, H.
  destruct (nth_error_split _ _ H') as (pre & post & E & Hl). exists pre, post. split; auto.
  intros k y Hk. destruct (In_nth_error _ _ Hk) as (n & Hn).
  assert (E2 : nth_error (enumerate l) (c + S n) = Some (k, y)).
  { rewrite E, nth_error_app2 by lia. replace (c + S n - length pre) with (S n) by lia. exact Hn. }
  rewrite enumerate_nth in E2. destruct (nth_error l (c + S n)) eqn:E3; [|discriminate].
  injection E2 as <- <-. split; [lia|exact E3].
Qed.
Lemma lastw_column g eid info i :
  match lastw (ids_of g) eid i (enumerate info) with
  | Some c => merged_column g eid info c i /\ forall c', c < c' -> ~ merged_column g eid info c' i
  | None => forall c, ~ merged_column g eid info c i
  end.
Proof.
  assert (U : forall c, merged_column g eid info c i -> (forall c', c < c' -> ~ merged_column g eid info c' i) ->
            lastw (ids_of g) eid i (enumerate info) = Some c).
  { intros c (id & E & Hne & Hf) Hl. destruct (nth_split_enum _ _ _ E) as (pre & post & -> & Hp).
    apply lastw_last; auto. destruct (lastw (ids_of g) eid i post) as [k|] eqn:El; auto. exfalso.
    destruct (lastw_some _ _ _ _ _ El) as (p1 & id' & p2 & -> & A & B).
    destruct (Hp k (MId id')) as [L N]; [apply in_or_app; right; now left|].
    apply (Hl k L). exists id'. auto. }
  assert (M : forall n c, length info - c <= n -> merged_column g eid info c i ->
            exists k, merged_column g eid info k i /\ forall c', k < c' -> ~ merged_column g eid info c' i).
  { assert (Dec : forall c, merged_column g eid info c i \/ ~ merged_column g eid info c i).
    { intros c. unfold merged_column. destruct (nth_error info c) as [[id|]|] eqn:E.
      - destruct (string_dec id eid) as [->|Hn].
        + right. intros (id' & H & Hx & _). congruence.
        + destruct (position id (ids_of g)) as [j|] eqn:Ep.
          * destruct (Nat.eq_dec j i) as [->|Hj].
            -- left. exists id. split; [reflexivity|]. split; [auto|]. now apply position_first.
            -- right. intros (id' & H & Hx & Hf). injection H as <-. apply position_first in Hf. congruence.
          * right. intros (id' & H & Hx & Hf). injection H as <-. apply position_first in Hf. congruence.
      - right. intros (id' & H & _). discriminate.
      - right. intros (id' & H & _). discriminate. }
    assert (Ex : forall n c, length info - c <= n ->
       (exists c', c < c' /\ merged_column g eid info c' i) \/ forall c', c < c' -> ~ merged_column g eid info c' i).
    { induction n as [|n IHn]; intros c Hc.
      - right. intros c' L (id & E & _). assert (c' < length info) by (apply nth_error_Some; congruence). lia.
      - destruct (Dec (S c)) as [D|D]; [left; exists (S c); auto|].
        destruct (IHn (S c) ltac:(lia)) as [(c' & L & X)|X].
        + left. exists c'. split; [lia|auto].
        + right. intros c' L. destruct (Nat.eq_dec c' (S c)) as [->|]; auto. apply X. lia. }
    induction n as [|n IHn]; intros c Hc Hm.
    - destruct Hm as (id & E & _). assert (c < length info) by (apply nth_error_Some; congruence). lia.
    - destruct (Ex _ c (Nat.le_refl _)) as [(c' & L & X)|X]; [|exists c; auto].
      apply (IHn c'); [|auto].
      destruct X as (id & E & _). assert (c' < length info) by (apply nth_error_Some; congruence). lia. }
  destruct (lastw (ids_of g) eid i (enumerate info)) as [c|] eqn:El.
  - destruct (lastw_some _ _ _ _ _ El) as (pre & id & post & E & A & B).
    assert (Hm : merged_column g eid info c i).
    { exists id. split; auto. assert (Hin : In (c, MId id) (enumerate info)) by (rewrite E; apply in_or_app; right; now left).
      now apply enumerate_in in Hin. }
    destruct (M _ c (Nat.le_refl _) Hm) as (k & Hk & Hl). pose proof (U k Hk Hl) as U2. assert (k = c) by congruence. subst k. auto.
  - intros c Hm. destruct (M _ c (Nat.le_refl _) Hm) as (k & Hk & Hl). pose proof (U k Hk Hl). congruence.
Qed.
Lemma merge_edge_spec g eid row e cols : merge_edge_idx g eid row cols = Ok e ->
  exists pre c post t raw, cols = pre ++ (c, MId eid) :: post /\ (forall k, ~ In (k, MId eid) pre) /\
    nth_error row c = Some t /\ tok_usize t = Some raw /\ edge_try_idx_from g raw = Ok e.
Proof.
  induction cols as [|[c [id|]] cols IH]; cbn [merge_edge_idx]; [discriminate| |].
  - intros H. apply bind_ok in H. destruct H as (t & Ht & H). apply idx_ok in Ht.
    destruct (String.eqb_spec id eid) as [->|Hn].
    + destruct (tok_usize t) as [raw|] eqn:Er; [|discriminate].
      exists [], c, cols, t, raw. repeat split; auto.
    + destruct (IH H) as (pre & c' & post & t' & raw & -> & A & B). exists ((c, MId id) :: pre), c', post, t', raw.
      split; auto. split; auto. intros k [Hk|Hk]; [congruence|]. now apply (A k).
  - intros H. destruct (IH H) as (pre & c' & post & t' & raw & -> & A & B).
    exists ((c, MIgnored) :: pre), c', post, t', raw. split; auto. split; auto.
    intros k [Hk|Hk]; [congruence|]. now apply (A k).
Qed.
Lemma merge_edge_names g eid info row e : merge_edge_idx g eid row (enumerate info) = Ok e ->
  row_names g eid info row e.
Proof.
  intros H. destruct (merge_edge_spec _ _ _ _ _ H) as (pre & c & post & t & raw & E & A & B & C & D).
  exists c, t, raw. assert (Hin : In (c, MId eid) (enumerate info)) by (rewrite E; apply in_or_app; right; now left).
  apply enumerate_in in Hin. repeat split; auto.
  intros c' L Hc'.
  assert (Hp : c = length pre).
  { assert (X : nth_error (enumerate info) (length pre) = Some (c, MId eid)).
    { rewrite E, nth_error_app2 by lia. now rewrite Nat.sub_diag. }
    rewrite enumerate_nth in X. destruct (nth_error info (length pre)); simpl in X; congruence. }
  apply (A c'). assert (X : nth_error (enumerate info) c' = Some (c', MId eid)) by now rewrite enumerate_nth, Hc'.
  rewrite E, nth_error_app1 in X by lia. eapply nth_error_In; eauto.
Qed.
Lemma row_names_fun g eid info row e e' : row_names g eid info row e -> row_names g eid info row e' -> e = e'.
Proof.
  intros (c & t & raw & A & B & C & D & E) (c' & t' & raw' & A' & B' & C' & D' & E').
  assert (c = c').
  { destruct (lt_eq_lt_dec c c') as [[L|L]|L]; auto; exfalso; [now apply (B' c)|now apply (B c')]. }
  subst. assert (t = t') by congruence. subst. assert (raw = raw') by congruence. subst. congruence.
Qed.

(** one row *)
Lemma merge_row_spec eid info g row g' : desc_l g -> merge_row eid info g row = Ok g' ->
  desc_l g' /\ g_cfg g' = g_cfg g /\ edge_ids_map g' = edge_ids_map g /\ edge_count g' FWD = edge_count g FWD /\
  exists e, row_names g eid info row e /\
    forall e' i,
      (e' <> e -> metric_of g' e' i = metric_of g e' i) /\
      ((forall c, ~ merged_column g eid info c i) -> metric_of g' e' i = metric_of g e' i) /\
      (forall c, e' = e -> merged_column g eid info c i -> (forall c', c < c' -> ~ merged_column g eid info c' i) ->
        exists t x, nth_error row c = Some t /\ tok_f64 t = Some x /\ metric_of g' e' i = Some x).
Proof.
  intros (D1 & D2 & D3) H. unfold merge_row in H. apply bind_ok in H. destruct H as (e & He & H).
  apply bind_ok in H. destruct H as (ms & Hm & H). injection H as <-.
  pose proof (merge_edge_names _ _ _ _ _ He) as Hr.
  destruct (nth_error (metrics g) e) as [m|] eqn:Em.
  2:{ (* no column is merged *)
      assert (N : forall cols ms', merge_cols (ids_of g) eid row e (metrics g) cols = Ok ms' -> ms' = metrics g /\ forall i, lastw (ids_of g) eid i cols = None).
      { clear Hm. unfold merge_cols. induction cols as [|[c [id|]] cols IH]; intros ms' H; cbn [foldM fst snd lastw] in *.
        - injection H as <-. auto.
        - apply bind_ok in H. destruct H as (ms1 & H1 & H). destruct (String.eqb id eid).
          + injection H1 as <-. destruct (IH _ H) as [-> X]. split; auto. intros i. now rewrite X.
          + apply bind_ok in H1. destruct H1 as (mi & Hi & H1). apply bind_ok in H1. destruct H1 as (t & Ht & H1).
            destruct (tok_f64 t); [|discriminate]. apply bind_ok in H1. destruct H1 as (old & Ho & _).
            apply idx_ok in Ho. congruence.
        - apply bind_ok in H. destruct H as (ms1 & H1 & H). injection H1 as <-. apply IH. exact H. }
      destruct (N _ _ Hm) as [-> X].
      split; [split; [|split]; auto|]. repeat split; auto.
      exists e. split; auto. intros e' i. repeat split; try (intros; rewrite !metric_of_nth; reflexivity).
      intros c -> Hc Hl. exfalso. pose proof (lastw_column g eid info i) as Y. rewrite X in Y. now apply (Y c). }
  destruct (merge_cols_spec _ _ _ _ _ _ _ _ Hm Em) as (A & B & m' & C & D & F).
  split.
  { split; [auto|split].
    - cbn. rewrite A. exact D2.
    - intros e' m0 E0. cbn in E0. destruct (Nat.eq_dec e' e) as [->|Hne].
      + rewrite C in E0. injection E0 as <-. rewrite D. apply (D3 e m Em).
      + rewrite B in E0 by auto. apply (D3 e' m0 E0). }
  repeat split; auto. exists e. split; auto. intros e' i.
  pose proof (lastw_column g eid info i) as Y. specialize (F i). change (ec_ids (cfg_edges (g_cfg g))) with (ids_of g) in F.
  rewrite !metric_of_nth. cbn [metrics with_metrics]. repeat split.
  - intros Hne. now rewrite B.
  - intros Hno. destruct (Nat.eq_dec e' e) as [->|Hne]; [|now rewrite B].
    rewrite C, Em. destruct (lastw (ids_of g) eid i (enumerate info)) as [c|]; auto.
    destruct Y as [Y _]. exfalso. now apply (Hno c).
  - intros c -> Hc Hl. rewrite C. destruct (lastw (ids_of g) eid i (enumerate info)) as [k|]; [|exfalso; now apply (Y c)].
    destruct Y as [Y1 Y2].
    assert (k = c). { destruct (lt_eq_lt_dec k c) as [[L|L]|L]; auto; exfalso; [now apply (Y2 c)|now apply (Hl k)]. }
    subst k. exact F.
Qed.
Lemma names_same g g' eid info row e : edge_ids_map g' = edge_ids_map g ->
  row_names g' eid info row e <-> row_names g eid info row e.
Proof. intros H. unfold row_names, edge_try_idx_from. rewrite H. reflexivity. Qed.
Lemma column_same g g' eid info c i : g_cfg g' = g_cfg g ->
  merged_column g' eid info c i <-> merged_column g eid info c i.
Proof. intros H. unfold merged_column, ids_of. rewrite H. reflexivity. Qed.
Lemma last_column g eid info i : (forall c, ~ merged_column g eid info c i) \/
  exists c, merged_column g eid info c i /\ forall c', c < c' -> ~ merged_column g eid info c' i.
Proof.
  pose proof (lastw_column g eid info i) as Y.
  destruct (lastw (ids_of g) eid i (enumerate info)) as [c|]; eauto.
Qed.

Lemma merge_rows_spec eid info rows : forall g g', desc_l g -> foldM (merge_row eid info) rows g = Ok g' ->
  desc_l g' /\ g_cfg g' = g_cfg g /\ edge_count g' FWD = edge_count g FWD /\
  (forall e i, metric_of g' e i = metric_of g e i \/
     exists row c t x, In row rows /\ row_names g eid info row e /\ merged_column g eid info c i /\
       nth_error row c = Some t /\ tok_f64 t = Some x /\ metric_of g' e i = Some x) /\
  (forall before row after e c i, rows = before ++ row :: after ->
     row_names g eid info row e -> merged_column g eid info c i ->
     (forall row', In row' after -> ~ row_names g eid info row' e) ->
     (forall c', c < c' -> ~ merged_column g eid info c' i) ->
     exists t x, nth_error row c = Some t /\ tok_f64 t = Some x /\ metric_of g' e i = Some x).
Proof.
  induction rows as [|row rows IH]; intros g g' D H; cbn [foldM] in H.
  - injection H as <-. split; [exact D|]. split; [reflexivity|]. split; [reflexivity|]. split; [now left|].
    intros before row after e c i E. destruct before; discriminate.
  - apply bind_ok in H. destruct H as (g1 & H1 & H).
    destruct (merge_row_spec _ _ _ _ _ D H1) as (D1 & C1 & M1 & E1 & e1 & N1 & S1).
    destruct (IH _ _ D1 H) as (D2 & C2 & E2 & S2 & L2).
    split; auto. split; [congruence|]. split; [congruence|]. split.
    + intros e i. destruct (S2 e i) as [S|(r & c & t & x & A & B & C & F)].
      * rewrite S. destruct (S1 e i) as (X1 & X2 & X3).
        destruct (Nat.eq_dec e e1) as [He|Hne]; [|left; auto].
        destruct (last_column g eid info i) as [Hno|(c & Hc & Hl)]; [left; auto|].
        right. destruct (X3 c He Hc Hl) as (t & x & Q1 & Q2 & Q3).
        exists row, c, t, x. subst e. repeat split; auto. now left.
      * right. exists r, c, t, x. split; [now right|]. apply (names_same g g1) in B; [|exact M1].
        apply (column_same g g1) in C; [|exact C1]. auto.
    + intros before r after e c i E Hr Hc Hno Hl. destruct before as [|r0 before]; simpl in E; injection E as E0 E.
      * subst r after. assert (e = e1) by (eapply row_names_fun; eauto). subst e1.
        destruct (S1 e i) as (_ & _ & X3). destruct (X3 c eq_refl Hc Hl) as (t & x & Q1 & Q2 & Q3).
        exists t, x. repeat split; auto. rewrite <- Q3.
        destruct (S2 e i) as [S|(r' & c' & t' & x' & A & B & _)]; auto.
        exfalso. apply (names_same g g1) in B; [|exact M1]. now apply (Hno r').
      * apply (L2 before r after e c i E).
        -- now apply (names_same g g1).
        -- now apply (column_same g g1).
        -- intros r' Hr' N. apply (names_same g g1) in N; [|exact M1]. now apply (Hno r').
        -- intros c' L N. apply (column_same g g1) in N; [|exact C1]. now apply (Hl c').
Qed.

(** one generating step *)
Lemma gen_step_spec hav g gc g' : desc_l g -> gen_step hav g gc = Ok g' ->
  desc_l g' /\ meets_formula hav g g' gc.
Proof.
  intros D H. pose proof D as (D1 & D2 & D3).
  destruct gc as [info id|u id d|u id|fu fid tu tid|fu fid tu tid|ru rid au aid bu bid|rows eid info];
    cbn [gen_step meets_formula] in *.
  - destruct info; try discriminate; injection H as <-;
      (split; [exact D|]; repeat split; intros; rewrite !metric_of_nth; reflexivity).
  - injection H as <-. apply adds_lemma; auto.
    + now rewrite map_length.
    + intros e m Em. exists d. split; auto. now rewrite nth_error_map, Em.
  - destruct u; try discriminate. apply bind_ok in H. destruct H as (ms & H1 & H). injection H as <-.
    pose proof (mapM_length _ _ _ H1) as L. rewrite enumerate_length in L. apply mapM_ok in H1.
    assert (Y : desc_l (push_metric_cfg (with_metrics g ms) Kilometers id) /\
      adds_metric g (push_metric_cfg (with_metrics g ms) Kilometers id) Kilometers id (fun e y =>
        exists s d cs cd, edge_from_to g e s d /\ node_coord g s = Ok cs /\ node_coord g d = Ok cd /\ y = hav cs cd)).
    { apply adds_lemma; auto. intros e m Em.
      assert (Hen : nth_error (enumerate (metrics g)) e = Some (e, m)) by now rewrite enumerate_nth, Em.
      destruct (Forall2_nth _ _ _ _ _ H1 Hen) as (m' & Em' & E). unfold haversine_edge in E. cbn [fst snd] in E.
      apply bind_ok in E. destruct E as (s & Es & E). apply bind_ok in E. destruct E as (dd & Ed & E).
      apply bind_ok in E. destruct E as (cs & Ecs & E). apply bind_ok in E. destruct E as (cd & Ecd & E).
      cbn [try_convert convert_opt bind] in E. injection E as <-.
      exists (hav cs cd). split; auto. exists s, dd, cs, cd. repeat split; auto. }
    destruct Y. auto.
  - apply bind_ok in H. destruct H as (mi & Hi & H). apply bind_ok in H. destruct H as (ms & H1 & H).
    injection H as <-. pose proof (mapM_length _ _ _ H1) as L. apply mapM_ok in H1. apply idx_of_first in Hi.
    apply adds_lemma; auto. intros e m Em. destruct (Forall2_nth _ _ _ _ _ H1 Em) as (m' & Em' & E).
    cbn beta in E. apply bind_ok in E. destruct E as (x & Ex & E). apply bind_ok in E. destruct E as (y & Ey & E).
    injection E as <-. exists y. split; auto. exists x. apply idx_ok in Ex. split.
    + eapply metric_named; eauto.
    + now apply try_convert_opt.
  - apply bind_ok in H. destruct H as (mi & Hi & H). apply bind_ok in H. destruct H as (ms & H1 & H).
    apply bind_ok in H. destruct H as (us & Hu & H). apply bind_ok in H. destruct H as (is & His & H).
    injection H as <-. pose proof (mapM_length _ _ _ H1) as L. apply mapM_ok in H1. apply idx_of_first in Hi.
    apply set_ok in Hu. destruct Hu as [Lu ->]. apply set_ok in His. destruct His as [Li ->].
    change (mi < length (units_of g)) in Lu. change (mi < length (ids_of g)) in Li.
    assert (K : forall e m, nth_error (metrics g) e = Some m -> exists x y, nth_error m mi = Some x /\
              convert_opt fu tu x = Some y /\ nth_error ms e = Some (upd m mi y) /\ mi < length m).
    { intros e m Em. destruct (Forall2_nth _ _ _ _ _ H1 Em) as (m' & Em' & E).
      cbn beta in E. apply bind_ok in E. destruct E as (x & Ex & E). apply bind_ok in E. destruct E as (y & Ey & E).
      apply set_ok in E. destruct E as [Lm ->]. apply idx_ok in Ex. apply try_convert_opt in Ey. exists x, y. auto. }
    assert (K0 : forall e, nth_error (metrics g) e = None -> nth_error ms e = None).
    { intros e E. apply nth_error_None in E. apply nth_error_None. lia. }
    split.
    + split; [|split].
      * unfold ids_of, units_of. cbn. rewrite !upd_length. exact D1.
      * cbn. rewrite L. exact D2.
      * intros e m' E. cbn [metrics with_edge_cfg with_cfg with_metrics] in E.
        unfold ids_of. cbn. rewrite upd_length.
        destruct (nth_error (metrics g) e) as [m|] eqn:Em; [|rewrite K0 in E by auto; discriminate].
        destruct (K e m Em) as (x & y & _ & _ & E' & _). rewrite E in E'. injection E' as ->.
        rewrite upd_length. apply (D3 e m Em).
    + exists mi. split; auto. split; [exact Li|]. split; [reflexivity|]. split; [|split; [|split]].
      * intros j. unfold ids_of. cbn. rewrite nth_error_upd.
        destruct (Nat.eqb_spec mi j) as [->|Hn]; simpl.
        -- rewrite Nat.eqb_refl. change (ec_ids (cfg_edges (g_cfg g))) with (ids_of g).
           apply Nat.ltb_lt in Li. now rewrite Li.
        -- destruct (Nat.eqb_spec j mi); [congruence|]. reflexivity.
      * intros j. unfold units_of. cbn. rewrite nth_error_upd.
        destruct (Nat.eqb_spec mi j) as [->|Hn]; simpl.
        -- rewrite Nat.eqb_refl. change (ec_units (cfg_edges (g_cfg g))) with (units_of g).
           apply Nat.ltb_lt in Lu. now rewrite Lu.
        -- destruct (Nat.eqb_spec j mi); [congruence|]. reflexivity.
      * intros e j Hj. rewrite !metric_of_nth. cbn [metrics with_edge_cfg with_cfg with_metrics].
        destruct (nth_error (metrics g) e) as [m|] eqn:Em; [|now rewrite K0].
        destruct (K e m Em) as (x & y & _ & _ & -> & _). apply nth_error_upd_neq; congruence.
      * intros e x. rewrite !metric_of_nth. cbn [metrics with_edge_cfg with_cfg with_metrics].
        destruct (nth_error (metrics g) e) as [m|] eqn:Em; [|discriminate]. intros Ex.
        destruct (K e m Em) as (x' & y & Ex' & Ey & -> & Lm). exists y. split.
        -- now apply nth_error_upd_eq.
        -- congruence.
  - apply bind_ok in H. destruct H as (ma & Ha & H). apply bind_ok in H. destruct H as (mb & Hb & H).
    apply bind_ok in H. destruct H as (ms & H1 & H).
    injection H as <-. pose proof (mapM_length _ _ _ H1) as L. apply mapM_ok in H1. apply idx_of_first in Ha, Hb.
    apply adds_lemma; auto. intros e m Em. destruct (Forall2_nth _ _ _ _ _ H1 Em) as (m' & Em' & E).
    cbn beta in E. apply bind_ok in E. destruct E as (x & Ex & E). apply bind_ok in E. destruct E as (y & Ey & E).
    apply bind_ok in E. destruct E as (z & Ez & E). injection E as <-. exists z. split; auto. exists x, y.
    apply idx_ok in Ex, Ey. repeat split; auto; eapply metric_named; eauto.
  - destruct (merge_rows_spec _ _ _ _ _ D H) as (A & B & C & F & G). split; auto.
    unfold ids_of, units_of. rewrite B. repeat split; auto.
Qed.

Lemma gen_steps_spec hav gcs : forall g g', desc_l g -> foldM (gen_step hav) gcs g = Ok g' ->
  desc_l g' /\ steps hav g gcs g'.
Proof.
  induction gcs as [|gc gcs IH]; intros g g' D H; cbn [foldM] in H.
  - injection H as <-. split; auto. constructor.
  - apply bind_ok in H. destruct H as (g1 & H1 & H). destruct (gen_step_spec _ _ _ _ D H1) as [D1 F1].
    destruct (IH _ _ D1 H) as [D2 S2]. split; auto. econstructor; eauto.
Qed.

(** steps that add metrics only *)
Lemma steps_keep hav gcs : forall g g', steps hav g gcs g' -> (forall gc, In gc gcs -> out_of_place gc) ->
  (exists more, ids_of g' = ids_of g ++ more) /\ (exists more, units_of g' = units_of g ++ more) /\
  edge_count g' FWD = edge_count g FWD /\
  forall e i, i < length (ids_of g) -> metric_of g' e i = metric_of g e i.
Proof.
  intros g g' H. induction H as [g|g g1 g' gc gcs F S IH]; intros Ho.
  - split; [exists []; now rewrite app_nil_r|]. split; [exists []; now rewrite app_nil_r|]. auto.
  - destruct IH as ((m1 & I1) & (m2 & I2) & I3 & I4). { intros. apply Ho. now right. }
    assert (A : (exists n1, ids_of g1 = ids_of g ++ n1) /\ (exists n2, units_of g1 = units_of g ++ n2) /\
                edge_count g1 FWD = edge_count g FWD /\
                forall e i, i < length (ids_of g) -> metric_of g1 e i = metric_of g e i).
    { assert (Og : out_of_place gc) by (apply Ho; now left).
      destruct gc; cbn [meets_formula out_of_place] in *; try contradiction.
      - destruct F as (A & B & C & D). rewrite A, B. repeat split; auto; exists []; now rewrite app_nil_r.
      - destruct F as (A & B & C & D & _). rewrite A, B. repeat split; eauto.
      - destruct F as (_ & A & B & C & D & _). rewrite A, B. repeat split; eauto.
      - destruct F as (A & B & C & D & _). rewrite A, B. repeat split; eauto.
      - destruct F as (A & B & C & D & _). rewrite A, B. repeat split; eauto. }
    destruct A as ((n1 & A1) & (n2 & A2) & A3 & A4).
    split; [exists (n1 ++ m1); rewrite I1, A1; now rewrite app_assoc|].
    split; [exists (n2 ++ m2); rewrite I2, A2; now rewrite app_assoc|].
    split; [congruence|]. intros e i Hi. rewrite I4, A4; auto. rewrite A1, app_length. lia.
Qed.

(** nodes' categories do not matter for edges *)
Lemma gen_node_edges ns : forall c c', foldM gen_node ns c = Ok c' ->
  cfg_edges c' = cfg_edges c /\ cfg_gen_edges c' = cfg_gen_edges c.
Proof.
  induction ns as [|n ns IH]; intros c c' H; cbn [foldM] in H.
  - injection H as <-. auto.
  - apply bind_ok in H. destruct H as (c1 & H1 & H). destruct (IH _ _ H) as [-> ->].
    unfold gen_node in H1. destruct (fst n); try discriminate. destruct (node_cat_has _ _); [discriminate|].
    injection H1 as <-. auto.
Qed.

Lemma normalize_desc g g' : desc_l g -> normalize g = Ok g' -> desc_l g'.
Proof.
  intros (D1 & D2 & D3). unfold normalize. destruct (ec_normalized _).
  - destruct (edge_count g FWD =? 0); [discriminate|]. destruct (existsb _ _); [discriminate|].
    intros H. apply bind_ok in H. destruct H as (ms & H1 & H). injection H as <-.
    pose proof (mapM_length _ _ _ H1) as L. apply mapM_ok in H1.
    split; [exact D1|]. split; [cbn; now rewrite L|].
    intros e m' E. cbn [metrics with_means with_metrics] in E.
    destruct (Forall2_nth_r _ _ _ _ _ H1 E) as (m & Em & Hm). cbn beta in Hm.
    unfold normalize_vec in Hm. apply mapM_length in Hm. rewrite Hm, enumerate_length.
    unfold ids_of in *. cbn. exact (D3 e m Em).
  - intros H. injection H as <-. split; auto.
Qed.

Lemma core_desc es b c K g : nb_inv es b -> core_spec es b c K g ->
  length (ec_ids (cfg_edges c)) = length (ec_units (cfg_edges c)) -> fitting_edges c es -> desc_l g.
Proof.
  intros Hb Hc Hl Hf. split; [|split].
  - unfold ids_of, units_of. now rewrite (cs_cfg _ _ _ _ _ Hc).
  - rewrite (cs_metrics _ _ _ _ _ Hc), map_length. symmetry. eapply core_edge_count; eauto.
  - intros e m E. rewrite (cs_metrics _ _ _ _ _ Hc), nth_error_map in E.
    destruct (nth_error K e) as [k|] eqn:Ek; [|discriminate]. injection E as <-.
    destruct (core_in_edge es b c K g Hb Hc k (nth_error_In _ _ Ek)) as (pe & Epe & -> & _).
    cbn. rewrite map_length. unfold ids_of. rewrite (cs_cfg _ _ _ _ _ Hc), Hl. apply Hf. eapply nth_error_In; eauto.
Qed.

(** what is generated from an inserted graph *)
Lemma build_steps hav c ch1 ch2 es ns g :
  1 <= ch1 -> 1 <= ch2 -> build hav c ch1 ch2 es ns = Ok g ->
  length (ec_ids (cfg_edges c)) = length (ec_units (cfg_edges c)) -> fitting_edges c es ->
  exists g0 g1, desc_l g0 /\ desc_l g1 /\ desc_l g /\
    ids_of g0 = ec_ids (cfg_edges c) /\ units_of g0 = ec_units (cfg_edges c) /\ cats_of g0 = ec_categories (cfg_edges c) /\
    foldM (gen_step hav) (cfg_gen_edges c) g0 = Ok g1 /\ normalize g1 = Ok g /\
    same_net g0 g /\ gen_dup (ec_categories (cfg_edges c)) (cfg_gen_edges c) = false /\
    edge_count g0 FWD = edge_count g FWD /\
    forall e, e < edge_count g FWD -> exists pe ms, In pe es /\ same_ends g e pe /\
      edge_metrics g0 e = Ok ms /\ Forall2 lifted (pe_metrics pe) ms.
Proof.
  intros H1 H2 E Hl Hf. destruct (build_split _ _ _ _ _ _ _ E) as (b & gc & g1 & Eb & Hb & E0 & E1 & E2).
  pose proof (build_core_spec _ _ _ _ _ _ H1 H2 Hb E0) as Hc.
  pose proof E1 as E1'. unfold generate in E1. rewrite (cs_cfg _ _ _ _ _ Hc) in E1.
  apply bind_ok in E1. destruct E1 as (c' & Ec & E1).
  destruct (gen_node_edges _ _ _ Ec) as [Q1 Q2]. rewrite Q1 in E1.
  destruct (gen_dup _ _) eqn:Edup; [discriminate|].
  assert (D0 : desc_l (with_cfg gc c')).
  { pose proof (core_desc _ _ _ _ _ Hb Hc Hl Hf) as (D1 & D2 & D3).
    unfold ids_of, units_of in *. rewrite (cs_cfg _ _ _ _ _ Hc) in D1, D3.
    split; [|split].
    - unfold ids_of, units_of. cbn. rewrite Q1. exact D1.
    - exact D2.
    - intros e m E'. unfold ids_of. cbn. rewrite Q1. exact (D3 e m E'). }
  destruct (gen_steps_spec _ _ _ _ D0 E1) as [D1 S1].
  pose proof (normalize_desc _ _ D1 E2) as D2.
  assert (N : same_net (with_cfg gc c') g).
  { destruct (gen_steps_net _ _ _ _ E1) as (N1 & _). destruct (normalize_net _ _ E2) as (N2 & _).
    eapply same_net_trans; eauto. }
  exists (with_cfg gc c'), g1. split; auto. split; auto. split; auto.
  unfold ids_of, units_of, cats_of. cbn [g_cfg with_cfg]. rewrite Q1. split; auto. split; auto. split; auto.
  split; auto. split; auto. split; auto. split; auto.
  split; [symmetry; now apply net_edge_count|].
  intros e He. destruct (build_edges _ _ _ _ _ _ _ H1 H2 E) as (rep & orig & A & _ & _).
  rewrite (net_edge_count _ _ FWD N) in He. change (edge_count (with_cfg gc c') FWD) with (edge_count gc FWD) in He.
  rewrite (core_edge_count es b c _ gc Hc) in He.
  destruct (nth_error (kept_edges es (nb_node_ids b) (nb_levels b)) e) as [k|] eqn:Ek;
    [|apply nth_error_None in Ek; lia].
  destruct (core_in_edge es b c _ gc Hb Hc k (nth_error_In _ _ Ek)) as (pe & Epe & Ekk & Es & Ed).
  exists pe, (map clamp_metric (pe_metrics pe)). split; [eapply nth_error_In; eauto|]. split.
  { exists (b_src k), (b_dst k). assert (Nc : same_net gc g) by (eapply same_net_trans; [|exact N]; constructor; reflexivity).
    split; [split|split].
    - rewrite (net_dst_idx gc g) by auto. apply (core_dst es b c _ gc Hc). eauto.
    - rewrite (net_dst_idx gc g) by auto. apply (core_dst es b c _ gc Hc). eauto.
    - unfold node_id. rewrite (sn_ids _ _ Nc). now apply idx_nth.
    - unfold node_id. rewrite (sn_ids _ _ Nc). now apply idx_nth. }
  split.
  - unfold edge_metrics. cbn [metrics with_cfg]. rewrite (cs_metrics _ _ _ _ _ Hc). apply idx_ok.
    rewrite nth_error_map, Ek. simpl. now rewrite Ekk.
  - clear. induction (pe_metrics pe); simpl; constructor; auto. apply clamp_lifted.
Qed.

(** normalizing is decided by the parsed configuration *)
Lemma gen_step_normalized hav g gc g' : gen_step hav g gc = Ok g' ->
  ec_normalized (cfg_edges (g_cfg g')) = ec_normalized (cfg_edges (g_cfg g)).
Proof.
  intros H. destruct gc as [info id|u id d|u id|fu fid tu tid|fu fid tu tid|ru rid au aid bu bid|rows eid info];
    cbn [gen_step] in *.
  - destruct info; try discriminate; injection H as <-; reflexivity.
  - injection H as <-. reflexivity.
  - destruct u; try discriminate. apply bind_ok in H. destruct H as (ms & _ & H). injection H as <-. reflexivity.
  - apply bind_ok in H. destruct H as (mi & _ & H). apply bind_ok in H. destruct H as (ms & _ & H).
    injection H as <-. reflexivity.
  - apply bind_ok in H. destruct H as (mi & _ & H). apply bind_ok in H. destruct H as (ms & _ & H).
    apply bind_ok in H. destruct H as (us & _ & H). apply bind_ok in H. destruct H as (is & _ & H).
    injection H as <-. reflexivity.
  - apply bind_ok in H. destruct H as (ma & _ & H). apply bind_ok in H. destruct H as (mb & _ & H).
    apply bind_ok in H. destruct H as (ms & _ & H). injection H as <-. reflexivity.
  - revert H. apply (foldM_inv _ (fun s => ec_normalized (cfg_edges (g_cfg s)) = ec_normalized (cfg_edges (g_cfg g)))).
    + reflexivity.
    + intros s x t _ Hs E. unfold merge_row in E. apply bind_ok in E. destruct E as (e & _ & E).
      apply bind_ok in E. destruct E as (ms & _ & E). injection E as <-. exact Hs.
Qed.
Lemma gen_steps_normalized hav gcs g g' : foldM (gen_step hav) gcs g = Ok g' ->
  ec_normalized (cfg_edges (g_cfg g')) = ec_normalized (cfg_edges (g_cfg g)).
Proof.
  apply (foldM_inv _ (fun s => ec_normalized (cfg_edges (g_cfg s)) = ec_normalized (cfg_edges (g_cfg g)))).
  - reflexivity.
  - intros s x t _ Hs E. rewrite (gen_step_normalized _ _ _ _ E). exact Hs.
Qed.

(** categories *)
Lemma metric_ids_app a b : metric_ids (a ++ b) = metric_ids a ++ metric_ids b.
Proof. induction a as [|[]]; simpl; congruence. Qed.
Lemma metric_units_app a b : metric_units (a ++ b) = metric_units a ++ metric_units b.
Proof. induction a as [|[]]; simpl; congruence. Qed.
Lemma convert_cats fid tu tid cs i : NoDup (metric_ids cs) -> first_at (metric_ids cs) fid i ->
  metric_ids (map (convert_category fid tu tid) cs) = upd (metric_ids cs) i tid /\
  metric_units (map (convert_category fid tu tid) cs) = upd (metric_units cs) i tu.
Proof.
  assert (Id : forall cs, ~ In fid (metric_ids cs) -> map (convert_category fid tu tid) cs = cs).
  { clear. induction cs as [|[info id|u id|] cs IH]; simpl; intros H; auto; [now rewrite IH| |now rewrite IH].
    destruct (String.eqb_spec id fid); [tauto|]. rewrite IH; tauto. }
  intros Hn [H1 H2]. revert i H1 H2. induction cs as [|[info id|u id|] cs IH]; intros i H1 H2; simpl in *.
  - destruct i; discriminate.
  - now apply IH.
  - inversion Hn as [|? ? N1 N2]; subst. destruct (String.eqb_spec id fid) as [->|Hne].
    + destruct i as [|i]; [|exfalso; apply (H2 0); [lia|reflexivity]].
      simpl. rewrite Id by auto. auto.
    + destruct i as [|i]; [simpl in H1; congruence|]. simpl.
      destruct (IH N2 i H1) as [A B]. { intros j Hj. apply (H2 (S j)). lia. }
      split; congruence.
  - now apply IH.
Qed.
Lemma gen_step_cats hav g gc g' : gen_step hav g gc = Ok g' -> cats_agree g ->
  (NoDup (ids_of g) \/ out_of_place gc) -> cats_agree g'.
Proof.
  intros H [A B] Hn. unfold cats_agree, cats_of, ids_of, units_of in *.
  destruct gc as [info id|u id d|u id|fu fid tu tid|fu fid tu tid|ru rid au aid bu bid|rows eid info];
    cbn [gen_step] in *.
  - destruct info; try discriminate; injection H as <-; cbn;
      rewrite metric_ids_app, metric_units_app, A, B; simpl; now rewrite !app_nil_r.
  - injection H as <-. cbn. rewrite metric_ids_app, metric_units_app, A, B. auto.
  - destruct u; try discriminate. apply bind_ok in H. destruct H as (ms & _ & H). injection H as <-.
    cbn. rewrite metric_ids_app, metric_units_app, A, B. auto.
  - apply bind_ok in H. destruct H as (mi & _ & H). apply bind_ok in H. destruct H as (ms & _ & H).
    injection H as <-. cbn. rewrite metric_ids_app, metric_units_app, A, B. auto.
  - apply bind_ok in H. destruct H as (mi & Hi & H). apply bind_ok in H. destruct H as (ms & _ & H).
    apply bind_ok in H. destruct H as (us & Hu & H). apply bind_ok in H. destruct H as (is & His & H).
    injection H as <-. cbn. destruct Hn as [Hn|Hn]; [|destruct Hn].
    apply idx_of_first in Hi. rewrite <- A in Hi, Hn.
    destruct (convert_cats fid tu tid _ _ Hn Hi) as [-> ->].
    apply set_ok in Hu. destruct Hu as [_ ->]. apply set_ok in His. destruct His as [_ ->].
    now rewrite A, B.
  - apply bind_ok in H. destruct H as (ma & _ & H). apply bind_ok in H. destruct H as (mb & _ & H).
    apply bind_ok in H. destruct H as (ms & _ & H). injection H as <-.
    cbn. rewrite metric_ids_app, metric_units_app, A, B. auto.
  - assert (E : g_cfg g' = g_cfg g).
    { revert H. apply (foldM_inv _ (fun s => g_cfg s = g_cfg g)); auto.
      intros s x t _ Hs E. unfold merge_row in E. apply bind_ok in E. destruct E as (e & _ & E).
      apply bind_ok in E. destruct E as (ms & _ & E). injection E as <-. exact Hs. }
    rewrite E. auto.
Qed.

(** duplicates *)
Lemma dup_found c gc id : In gc (cfg_gen_edges c) -> creates gc id -> parsed_id c id ->
  gen_dup (ec_categories (cfg_edges c)) (cfg_gen_edges c) = true.
Proof.
  intros Hin Hc (cat & Hcat & Hid). unfold gen_dup. apply existsb_exists. exists gc. split; auto.
  assert (E : gen_new_id gc = Some id) by (destruct gc; simpl in *; try contradiction; congruence).
  rewrite E. unfold edge_cat_has. apply existsb_exists. exists cat. split; auto.
  destruct Hid as [(info & ->)|(u & ->)]; simpl; apply String.eqb_refl.
Qed.
Lemma gen_nodes_res ns : forall c, (exists c', foldM gen_node ns c = Ok c') \/ exists m, foldM gen_node ns c = Err m.
Proof.
  induction ns as [|n ns IH]; intros c; cbn [foldM]; eauto.
  unfold gen_node at 1 3. destruct (fst n); cbn [bind]; eauto. destruct (node_cat_has _ _); cbn [bind]; eauto.
Qed.
Lemma dup_err hav c ch1 ch2 es ns g0 :
  build hav (without_generating c) ch1 ch2 es ns = Ok g0 ->
  gen_dup (ec_categories (cfg_edges c)) (cfg_gen_edges c) = true ->
  exists m, build hav c ch1 ch2 es ns = Err m.
Proof.
  unfold build, finalize. intros H D. apply bind_ok in H. destruct H as (b & Eb & H). rewrite Eb. cbn [bind].
  apply bind_ok in H. destruct H as (g & Eg & _).
  rewrite (build_core_cfg (without_generating c) c), Eg. cbn [rmap bind].
  unfold generate at 1. cbn [g_cfg with_cfg].
  destruct (gen_nodes_res (cfg_gen_nodes c) c) as [(c' & Ec)|(m & ->)]; cbn [bind]; eauto.
  rewrite Ec. cbn [bind]. destruct (gen_node_edges _ _ _ Ec) as [-> _]. rewrite D. cbn [bind]. eauto.
Qed.
