(** Property C50: exported edges can be merged into another graph *)
From Coq Require Import String Ascii List Bool Arith NArith ZArith QArith Lia Sorting.Sorted.
From Verif Require Import Base F64 ModelText ModelUnits ModelConfig ModelGraph ModelBuild Lib ProofText Spec Examples SpecGenerate ProofGenerate
  ModelParsing ModelFmi ModelWriting ModelEvaluating SpecWriting PropsWriting SpecRoundtrip ProofRoundtrip ProofProps PropsRoundtrip PropsGraph PropsConfig PropsGenerate.
Import ListNotations.
Open Scope string_scope.
Open Scope list_scope.
Open Scope nat_scope.

(** *** Vocabulary *)

(** a column written for [o] is merged as [m] *)
Inductive merged_as (g1 g2 : graph) (eid : string) : option string -> merge_cat -> Prop :=
| merged_ignored o : merged_as g1 g2 eid o MIgnored
| merged_id id : called g1 id (CMeta EdgeId id) -> merged_as g1 g2 eid (Some id) (MId eid)
| merged_metric id id' u : called g1 id (CMetric u id) -> id' <> eid -> In id' (ids_of g2) -> merged_as g1 g2 eid (Some id) (MId id').

(** the columns' names make one line, and it is not taken for a comment *)
Definition names_readable (ids : list (option string)) : Prop :=
  (forall id, In (Some id) ids -> ~ In LF (T id)) /\
  forall id ids', ids = Some id :: ids' -> exists c t, T id = c :: t /\ c <> HASH /\ c <> CR.

(** edge [e1] of [g1] and edge [e2] of [g2] have the same id *)
Definition partners (g1 g2 : graph) (e1 e2 : nat) : Prop :=
  exists k, edge_try_id g1 e1 = Ok (Some k) /\ edge_try_idx_from g2 k = Ok e2.

(** *** The rows of the file *)
Lemma Forall2_head {A B} (R : A -> B -> Prop) x l y l' : Forall2 R (x :: l) (y :: l') -> R x y /\ Forall2 R l l'.
Proof. intros H. inversion H. auto. Qed.
Lemma Forall2_flip {A B} (R : A -> B -> Prop) l l' : Forall2 R l l' -> Forall2 (fun b a => R a b) l' l.
Proof. induction 1; constructor; auto. Qed.
Definition token_of (parse_f64 : text -> option f64) (w : text) : token :=
  {| tok_usize := option_map N.to_nat (parse_usize w); tok_f64 := parse_f64 w |}.

Lemma strip_functional c t : c <> HASH -> c <> CR -> is_line_functional (strip_cr (c :: t)) = true.
Proof.
  intros H1 H2. unfold strip_cr. assert (G : forall l, is_line_functional (c :: l) = true).
  { intros l. cbn. destruct (Ascii.eqb_spec c HASH); [congruence|reflexivity]. }
  destruct (rev (c :: t)) as [|d l] eqn:El; [apply G|]. destruct (Ascii.eqb_spec d CR) as [->|]; [|apply G].
  assert (Er : c :: t = rev l ++ [CR]) by (rewrite <- (rev_involutive (c :: t)), El; reflexivity).
  destruct (rev l) as [|d' l']; [injection Er as Er; congruence|]. injection Er as <- _. apply G.
Qed.
Lemma spaced_no_LF ws : (forall w, In w ws -> ~ In LF w) -> ~ In LF (spaced ws).
Proof.
  induction ws as [|w ws IH]; intros H; [intros []|]. destruct ws as [|v ws]; [apply H; now left|].
  change (spaced (w :: v :: ws)) with (w ++ SPACE :: spaced (v :: ws)). intros Hi. apply in_app_or in Hi. destruct Hi as [Hi|[Hi|Hi]].
  - revert Hi. apply H. now left.
  - discriminate Hi.
  - revert Hi. apply IH. intros x Hx. apply H. now right.
Qed.
Lemma header_dropped ids s : ids <> [] -> names_readable ids ->
  skipn 1 (functional_lines (line (spaced (map column_name ids)) ++ s)) = functional_lines s.
Proof.
  intros Hne [H1 H2]. unfold functional_lines, line. rewrite <- app_assoc. change ([LF] ++ s) with (LF :: s).
  rewrite lines_app.
  2:{ apply spaced_no_LF. intros w Hw. apply in_map_iff in Hw. destruct Hw as ([id|] & <- & Hi); [now apply H1|]. intros [E|[]]. discriminate E. }
  cbn [filter].
  assert (E : is_line_functional (strip_cr (spaced (map column_name ids))) = true).
  { destruct ids as [|o ids]; [congruence|].
    assert (exists c t, column_name o = c :: t /\ c <> HASH /\ c <> CR) as (c & t & Ec & Hc).
    { destruct o as [id|]; [apply (H2 id ids eq_refl)|]. exists "_"%char, []. split; [reflexivity|]. split; discriminate. }
    assert (exists t', spaced (map column_name (o :: ids)) = c :: t') as (t' & ->).
    { cbn [map]. destruct ids; cbn [map spaced]; rewrite Ec; eexists; reflexivity. }
    now apply strip_functional. }
  rewrite E. reflexivity.
Qed.

Lemma written_rows show_f64 parse_f64 g wc file :
  write_edges show_f64 g wc = Ok file -> wc_ids wc <> [] -> (wc_header wc = true -> names_readable (wc_ids wc)) ->
  (forall x, written_value g (wc_denormalizing wc) x -> survives show_f64 parse_f64 x) ->
  exists es cellss, exported_edges g (wc_shortcuts wc) es /\
    Forall2 (fun e cells => Forall2 (fun o t => edge_cell show_f64 g (wc_denormalizing wc) e o = Ok t) (wc_ids wc) cells) es cellss /\
    merge_rows parse_f64 (wc_header wc) file = map (map (token_of parse_f64)) cellss.
Proof.
  intros H Hne Hh Hval. unfold write_edges in H. apply bind_ok in H. destruct H as (rows & Hr & H).
  assert (Ef : header_line wc ++ concat rows = file) by congruence. clear H.
  destruct (edge_rows_exported _ _ _ _ Hr) as (es & Hes & F).
  destruct (rows_cells (fun e o => edge_cell show_f64 g (wc_denormalizing wc) e o) (wc_ids wc) _ _ F) as (cellss & -> & F').
  exists es, cellss. split; [exact Hes|]. split; [exact F'|].
  assert (G : Forall (fun cells => Forall good_cell cells /\ cells <> []) cellss).
  { clear - F' Hval Hne. induction F' as [|e cells es cellss Hc F IH]; constructor; auto. split.
    - clear - Hc Hval. induction Hc as [|o t os ts Ht F IH]; constructor; auto.
      exact (cell_good show_f64 parse_f64 g (wc_denormalizing wc) Hval e o t Ht).
    - intros ->. inversion Hc. congruence. }
  assert (Hl : functional_lines (concat (map (fun cells => line (spaced cells)) cellss)) = map spaced cellss).
  { rewrite <- (map_map spaced line). apply functional_all. apply Forall_forall. intros l Hl. apply in_map_iff in Hl. destruct Hl as (cells & <- & Hl).
    rewrite Forall_forall in G. destruct (G _ Hl) as [Gc Gn]. now apply good_row. }
  assert (Hls : (if wc_header wc then skipn 1 (functional_lines file) else functional_lines file) = map spaced cellss).
  { rewrite <- Hl, <- Ef. unfold header_line. destruct (wc_header wc); [|reflexivity]. apply header_dropped; auto. }
  unfold merge_rows. rewrite Hls, map_map. apply map_ext_in. intros cells Hc. rewrite Forall_forall in G. destruct (G _ Hc) as [Gc Gn].
  destruct (good_row _ Gc Gn) as (-> & _). reflexivity.
Qed.

(** *** Merging succeeds *)
Lemma merge_edge_ok g eid row e raw : forall cols,
  (exists pre c post t, cols = pre ++ (c, MId eid) :: post /\ (forall k, ~ In (k, MId eid) pre) /\
     nth_error row c = Some t /\ tok_usize t = Some raw) ->
  (forall c m, In (c, m) cols -> c < length row) ->
  edge_try_idx_from g raw = Ok e -> merge_edge_idx g eid row cols = Ok e.
Proof.
  induction cols as [|[c [id|]] cols IH]; intros (pre & c' & post & t & E & Hn & Ht & Hu) Hlt He.
  - destruct pre; discriminate.
  - cbn [merge_edge_idx]. destruct (idx_lt row c) as [x Hx]; [apply (Hlt c (MId id)); now left|]. rewrite Hx. cbn [bind].
    destruct pre as [|p pre]; injection E; intros E2 E1.
    + intros. subst. rewrite String.eqb_refl. apply idx_ok in Hx. assert (x = t) by congruence. subst x. rewrite Hu. exact He.
    + destruct (String.eqb_spec id eid) as [->|N]; [exfalso; apply (Hn c); left; auto|].
      apply IH; [|intros k m Hk; apply (Hlt k m); now right|exact He]. exists pre, c', post, t. split; [auto|]. split; [|auto].
      intros k Hk. apply (Hn k). now right.
  - cbn [merge_edge_idx]. destruct pre as [|p pre]; injection E; intros E2 E1; [discriminate|].
    apply IH; [|intros k m Hk; apply (Hlt k m); now right|exact He]. exists pre, c', post, t. split; [auto|]. split; [|auto].
    intros k Hk. apply (Hn k). now right.
Qed.

Lemma names_edge g eid info row e : row_names g eid info row e -> length row = length info ->
  merge_edge_idx g eid row (enumerate info) = Ok e.
Proof.
  intros (c & t & raw & Hc & Hb & Ht & Hu & He) L. apply merge_edge_ok with raw; auto.
  - assert (H' : nth_error (enumerate info) c = Some (c, MId eid)) by now rewrite enumerate_nth, Hc.
    destruct (nth_error_split _ _ H') as (pre & post & E & Lp). exists pre, c, post, t. split; [exact E|]. split; [|auto].
    intros k Hk. destruct (In_nth_error _ _ Hk) as [n Hn].
    assert (Ln : n < length pre) by (apply nth_error_Some; congruence).
    assert (E2 : nth_error (enumerate info) n = Some (k, MId eid)) by (rewrite E, nth_error_app1 by lia; exact Hn).
    rewrite enumerate_nth in E2. destruct (nth_error info n) as [m|] eqn:E3; [|discriminate]. injection E2 as -> ->.
    apply (Hb k); [lia|exact E3].
  - intros k m Hk. apply enumerate_in in Hk. rewrite L. apply nth_error_Some. congruence.
Qed.

(** all columns of the row can be merged *)
Definition row_fits (ids : list string) (eid : string) (info : list merge_cat) (row : list token) : Prop :=
  length row = length info /\
  forall c id, nth_error info c = Some (MId id) -> id <> eid ->
    In id ids /\ exists t x, nth_error row c = Some t /\ tok_f64 t = Some x.

Lemma in_idx_of ids id : In id ids -> exists i, idx_of ids id = Ok i /\ i < length ids.
Proof.
  intros H. destruct (first_dec ids id) as [[i Hi]|[N _]]; [|contradiction]. exists i. split; [now apply idx_of_first|].
  apply nth_error_Some. destruct Hi as [-> _]. discriminate.
Qed.
Lemma merge_cols_ok ids eid row e : forall cols ms m,
  (forall c id, In (c, MId id) cols -> id <> eid -> In id ids /\ exists t x, nth_error row c = Some t /\ tok_f64 t = Some x) ->
  nth_error ms e = Some m -> length m = length ids -> exists ms', merge_cols ids eid row e ms cols = Ok ms'.
Proof.
  unfold merge_cols. induction cols as [|[c [id|]] cols IH]; intros ms m Hc Hm Lm; cbn [foldM fst snd]; [eauto| |].
  - destruct (String.eqb_spec id eid) as [->|N]; cbn [bind].
    + apply IH with m; auto. intros k i Hk. apply Hc. now right.
    + destruct (Hc c id (or_introl eq_refl) N) as (Hi & t & x & Ht & Hx). destruct (in_idx_of _ _ Hi) as (i & -> & Li). cbn [bind].
      rewrite (proj2 (idx_ok row c t) Ht). cbn [bind]. rewrite Hx. rewrite (proj2 (idx_ok ms e m) Hm). cbn [bind].
      rewrite set_lt by lia. cbn [bind].
      assert (Le : e < length ms) by (apply nth_error_Some; congruence). rewrite set_lt by exact Le. cbn [bind].
      apply IH with (upd m i x); [intros k j Hk; apply Hc; now right| |now rewrite upd_length].
      rewrite nth_error_upd_eq by exact Le. reflexivity.
  - cbn [bind]. apply IH with m; auto. intros k i Hk. apply Hc. now right.
Qed.

Lemma merge_rows_ok eid info rows : forall g, desc_l g ->
  (forall row, In row rows -> row_fits (ids_of g) eid info row /\ exists e, e < edge_count g FWD /\ row_names g eid info row e) ->
  exists g', foldM (merge_row eid info) rows g = Ok g'.
Proof.
  induction rows as [|row rows IH]; intros g D H; cbn [foldM]; [eauto|].
  destruct (H row (or_introl eq_refl)) as ([L Hf] & e & Le & Hn).
  assert (exists g1, merge_row eid info g row = Ok g1) as [g1 E1].
  { unfold merge_row. rewrite (names_edge _ _ _ _ _ Hn L). cbn [bind].
    destruct D as (_ & D2 & D3). destruct (nth_error (metrics g) e) as [m|] eqn:Em.
    2:{ apply nth_error_None in Em. lia. }
    destruct (merge_cols_ok (ids_of g) eid row e (enumerate info) (metrics g) m) as [ms Hms]; [|exact Em|now apply (D3 e)|].
    - intros c id Hc N. apply enumerate_in in Hc. now apply Hf.
    - unfold ids_of in Hms. rewrite Hms. cbn [bind]. eauto. }
  rewrite E1. cbn [bind]. destruct (merge_row_spec _ _ _ _ _ D E1) as (D1 & C1 & M1 & N1 & _). apply IH; [exact D1|].
  intros r Hr. destruct (H r (or_intror Hr)) as (F & e' & L' & R). unfold ids_of. rewrite C1, N1. split; [exact F|]. exists e'. split; [exact L'|].
  now apply (names_same g g1).
Qed.

(** *** The theorem *)
Section Merged.
  Variables (show_f64 : f64 -> text) (parse_f64 : text -> option f64).
  Variables (g1 g2 : graph) (wc : edges_cfg) (eid : string) (info : list merge_cat).
  Hypothesis Hval : forall x, written_value g1 (wc_denormalizing wc) x -> survives show_f64 parse_f64 x.
  Hypothesis Hids : forall e i, edge_try_id g1 e = Ok (Some i) -> (N.of_nat i <= U64_MAX)%N.
  Hypothesis Hcols : Forall2 (merged_as g1 g2 eid) (wc_ids wc) info.
  Hypothesis Hin : In (MId eid) info.

  Definition cells_of (e : nat) (cells : list text) : Prop :=
    Forall2 (fun o t => edge_cell show_f64 g1 (wc_denormalizing wc) e o = Ok t) (wc_ids wc) cells.

  Lemma column_at c m : nth_error info c = Some m -> exists o, nth_error (wc_ids wc) c = Some o /\ merged_as g1 g2 eid o m.
  Proof.
    intros H. destruct (Forall2_nth _ _ _ _ _ (Forall2_flip _ _ _ Hcols) H) as (o & Ho & Hm). eauto.
  Qed.
  Lemma cells_length e cells : cells_of e cells -> length (map (token_of parse_f64) cells) = length info.
  Proof. intros H. rewrite map_length, <- (Forall2_len _ _ _ H). exact (Forall2_len _ _ _ Hcols). Qed.

  Lemma id_cell e cells c : cells_of e cells -> nth_error info c = Some (MId eid) ->
    exists k t, edge_try_id g1 e = Ok (Some k) /\ nth_error (map (token_of parse_f64) cells) c = Some t /\ tok_usize t = Some k.
  Proof.
    intros HC H. destruct (column_at _ _ H) as (o & Ho & Hm). destruct (Forall2_nth _ _ _ _ _ HC Ho) as (w & Hw & Ew).
    assert (exists id, o = Some id /\ called g1 id (CMeta EdgeId id)) as (id & -> & Hid) by (inversion Hm; subst; [eauto|congruence]).
    pose proof (cell_meta show_f64 g1 _ _ _ _ _ Hid Ew) as M. cbn [meta_cell] in M. unfold edge_id in M.
    destruct (edge_try_id g1 e) as [[k|]| | |] eqn:Ek; cbn [bind expect] in M; try discriminate. injection M as <-.
    exists k, (token_of parse_f64 (show_nat k)). split; [reflexivity|]. split; [now apply map_nth_error|].
    cbn [token_of tok_usize]. rewrite parse_usize_nat by (eapply Hids; exact Ek). cbn [option_map]. now rewrite Nat2N.id.
  Qed.
  Lemma metric_cell_at e cells c id' : cells_of e cells -> nth_error info c = Some (MId id') -> id' <> eid ->
    In id' (ids_of g2) /\ exists id j x t, nth_error (wc_ids wc) c = Some (Some id) /\ first_at (ids_of g1) id j /\
      exported_metric g1 (wc_denormalizing wc) e j x /\
      nth_error (map (token_of parse_f64) cells) c = Some t /\ tok_f64 t = Some x.
  Proof.
    intros HC H N. destruct (column_at _ _ H) as (o & Ho & Hm). destruct (Forall2_nth _ _ _ _ _ HC Ho) as (w & Hw & Ew).
    inversion Hm as [|id Hid|id i u Hid Hne Hi]; subst; [congruence|]. split; [exact Hi|].
    destruct (cell_metric show_f64 g1 _ _ _ _ _ Hid Ew) as (j & x & Hj & Hx & ->).
    exists id, j, x, (token_of parse_f64 (show_f64 x)). split; [exact Ho|]. split; [exact Hj|]. split; [exact Hx|].
    split; [now apply map_nth_error|]. cbn [token_of tok_f64]. apply Hval. right. eauto.
  Qed.

  Lemma first_id : exists c, nth_error info c = Some (MId eid) /\ forall c', c' < c -> nth_error info c' <> Some (MId eid).
  Proof.
    revert Hin. clear. induction info as [|m l IH]; intros H; [destruct H|].
    assert (D : m = MId eid \/ m <> MId eid).
    { destruct m as [i|]; [|right; discriminate]. destruct (String.eqb_spec i eid); [left; congruence|right; congruence]. }
    destruct D as [->|N]; [exists 0; split; [reflexivity|intros; lia]|]. destruct H as [H|H]; [congruence|].
    destruct (IH H) as (c & A & B). exists (S c). split; [exact A|]. intros [|c'] L; cbn [nth_error]; [congruence|]. apply B. lia.
  Qed.
  Lemma row_partner e1 e2 cells : cells_of e1 cells ->
    row_names g2 eid info (map (token_of parse_f64) cells) e2 <-> partners g1 g2 e1 e2.
  Proof.
    intros HC. split.
    - intros (c & t & raw & Hc & _ & Ht & Hu & He). destruct (id_cell _ _ _ HC Hc) as (k & t' & Hk & Ht' & Hu').
      exists k. split; [exact Hk|]. replace k with raw by congruence. exact He.
    - intros (k & Hk & He). destruct first_id as (c & Hc & Hf). destruct (id_cell _ _ _ HC Hc) as (k' & t & Hk' & Ht & Hu).
      exists c, t, k. split; [exact Hc|]. split; [exact Hf|]. split; [exact Ht|]. split; [congruence|exact He].
  Qed.
End Merged.

(** edge [e] is to be exported *)
Definition exported (g : graph) (shortcuts : bool) (e : nat) : Prop :=
  e < edge_count g FWD /\ (shortcuts = true \/ sc_edges g e = Ok None).

(** rows that name partners can be merged *)
Lemma merge_all hav g1 g2 sc eid info es rows :
  exported_edges g1 sc es ->
  Forall2 (fun e1 row => row_fits (ids_of g2) eid info row /\ forall e2, row_names g2 eid info row e2 <-> partners g1 g2 e1 e2) es rows ->
  described g2 ->
  (forall e1, exported g1 sc e1 -> exists e2, e2 < edge_count g2 FWD /\ partners g1 g2 e1 e2) ->
  (forall e1 e1' e2, exported g1 sc e1 -> exported g1 sc e1' -> partners g1 g2 e1 e2 -> partners g1 g2 e1' e2 -> e1 = e1') ->
  exists g2', gen_step hav g2 (GMerge rows eid info) = Ok g2' /\
    described g2' /\ ids_of g2' = ids_of g2 /\ units_of g2' = units_of g2 /\ edge_count g2' FWD = edge_count g2 FWD /\
    (forall n e1 row e2 c i, nth_error es n = Some e1 -> nth_error rows n = Some row -> partners g1 g2 e1 e2 ->
       merged_column g2 eid info c i -> (forall c', c < c' -> ~ merged_column g2 eid info c' i) ->
       exists t x, nth_error row c = Some t /\ tok_f64 t = Some x /\ metric_of g2' e2 i = Some x) /\
    (forall e2 i, (forall c, ~ merged_column g2 eid info c i) \/ (forall e1, exported g1 sc e1 -> ~ partners g1 g2 e1 e2) ->
       metric_of g2' e2 i = metric_of g2 e2 i).
Proof.
  intros [Hsort Hes] F D Hp Hinj.
  assert (Hrow : forall row, In row rows -> exists e1, In e1 es /\ row_fits (ids_of g2) eid info row /\
    forall e2, row_names g2 eid info row e2 <-> partners g1 g2 e1 e2).
  { intros row Hr. destruct (In_nth_error _ _ Hr) as [n Hn]. destruct (Forall2_nth _ _ _ _ _ (Forall2_flip _ _ _ F) Hn) as (e1 & He & HC).
    exists e1. split; [eapply nth_error_In; exact He|exact HC]. }
  destruct (merge_rows_ok eid info rows g2) as [g2' E].
  { now apply desc_described. }
  { intros row Hr. destruct (Hrow row Hr) as (e1 & He & Hf & HR). split; [exact Hf|].
    destruct (Hp e1) as (e2 & L2 & P); [now apply Hes|]. exists e2. split; [exact L2|]. now apply HR. }
  exists g2'. split; [exact E|]. destruct (C39_step hav g2 (GMerge rows eid info) g2' D E) as (D' & M). split; [exact D'|].
  cbn [meets_formula] in M. destruct M as (M1 & M2 & M3 & M4 & M5). do 3 (split; [assumption|]). split.
  - intros n e1 row e2 c i He Hr P Hc Hl.
    destruct (nth_error_split _ _ He) as (es1 & es2 & Ees & L1). destruct (nth_error_split _ _ Hr) as (rs1 & rs2 & Ers & L2). subst es.
    apply Forall2_app_inv_l in F. destruct F as (rs1' & rs2' & F1 & F2 & Er). destruct rs2' as [|row' rs2'']; [inversion F2|]. apply Forall2_head in F2. destruct F2 as [HC F2'].
    assert (Hlen : length rs1' = length rs1) by (rewrite <- (Forall2_len _ _ _ F1); lia).
    rewrite Er in Ers.
    assert (rs1' = rs1 /\ row' :: rs2'' = row :: rs2) as [-> Eq].
    { clear - Ers Hlen. revert rs1 Ers Hlen. induction rs1' as [|a l IH]; intros [|b rs1] E L; cbn in *; try lia; [auto|].
      injection E as -> E. destruct (IH rs1 E) as [-> ->]; [lia|auto]. }
    injection Eq as -> ->. destruct HC as [_ HR].
    apply (M5 _ _ _ e2 c i Er); [now apply HR|exact Hc| |exact Hl].
    intros row' Hr' R. destruct (In_nth_error _ _ Hr') as [k Hk].
    destruct (Forall2_nth _ _ _ _ _ (Forall2_flip _ _ _ F2') Hk) as (e1' & He' & _ & HR'). apply HR' in R. apply nth_error_In in He'.
    assert (e1' = e1). { apply (Hinj e1' e1 e2); auto; apply Hes; apply in_or_app; right; simpl; auto. }
    subst e1'. assert (Hlt : forall l1 l2, StronglySorted lt (l1 ++ e1 :: l2) -> ~ In e1 l2).
    { clear. induction l1 as [|a l1 IH]; intros l2 Hs; cbn [app] in Hs; inversion Hs as [|? ? Hs' Hf]; subst; [|now apply IH].
      intros H. rewrite Forall_forall in Hf. specialize (Hf _ H). lia. }
    exact (Hlt _ _ Hsort He').
  - intros e2 i H. destruct (M4 e2 i) as [Hm|(row & c & t & x & Hr & R & Hc & _)]; [exact Hm|]. exfalso. destruct H as [H|H]; [now apply (H c)|].
    destruct (Hrow row Hr) as (e1 & He & _ & HR). apply (H e1); [now apply Hes|now apply HR].
Qed.

(** If every exported edge has a partner, the exported file can be merged: every
    partner gets the exported values, in the metrics its columns are merged into
    (the last column counts); nothing else changes. *)
Theorem C50_merged show_f64 parse_f64 hav g1 g2 wc eid info file :
  write_edges show_f64 g1 wc = Ok file -> (wc_header wc = true -> names_readable (wc_ids wc)) ->
  (forall x, written_value g1 (wc_denormalizing wc) x -> survives show_f64 parse_f64 x) ->
  (forall e i, edge_try_id g1 e = Ok (Some i) -> (N.of_nat i <= U64_MAX)%N) ->
  Forall2 (merged_as g1 g2 eid) (wc_ids wc) info -> In (MId eid) info -> described g2 ->
  (forall e1, exported g1 (wc_shortcuts wc) e1 -> exists e2, e2 < edge_count g2 FWD /\ partners g1 g2 e1 e2) ->
  (forall e1 e1' e2, exported g1 (wc_shortcuts wc) e1 -> exported g1 (wc_shortcuts wc) e1' ->
     partners g1 g2 e1 e2 -> partners g1 g2 e1' e2 -> e1 = e1') ->
  exists g2', gen_step hav g2 (GMerge (merge_rows parse_f64 (wc_header wc) file) eid info) = Ok g2' /\
    described g2' /\ ids_of g2' = ids_of g2 /\ units_of g2' = units_of g2 /\ edge_count g2' FWD = edge_count g2 FWD /\
    (forall e1 e2 c i id j x, exported g1 (wc_shortcuts wc) e1 -> partners g1 g2 e1 e2 ->
       merged_column g2 eid info c i -> (forall c', c < c' -> ~ merged_column g2 eid info c' i) ->
       nth_error (wc_ids wc) c = Some (Some id) -> first_at (ids_of g1) id j ->
       exported_metric g1 (wc_denormalizing wc) e1 j x -> metric_of g2' e2 i = Some x) /\
    (forall e2 i, (forall c, ~ merged_column g2 eid info c i) \/
                  (forall e1, exported g1 (wc_shortcuts wc) e1 -> ~ partners g1 g2 e1 e2) ->
       metric_of g2' e2 i = metric_of g2 e2 i).
Proof.
  intros W Hh Hval Hids Hcols Hin D Hp Hinj.
  assert (Hne : wc_ids wc <> []) by (intros E; rewrite E in Hcols; inversion Hcols; subst; destruct Hin).
  destruct (written_rows _ _ _ _ _ W Hne Hh Hval) as (es & cellss & Hes & F & Er). rewrite Er.
  assert (F' : Forall2 (fun e1 row => row_fits (ids_of g2) eid info row /\ forall e2, row_names g2 eid info row e2 <-> partners g1 g2 e1 e2)
                 es (map (map (token_of parse_f64)) cellss)).
  { clear Er Hes. induction F as [|e1 cells es cellss HC F IH]; cbn [map]; constructor; [|exact IH]. split.
    - split; [eapply cells_length; eauto|]. intros c id Hc N.
      destruct (metric_cell_at show_f64 parse_f64 g1 g2 wc eid info Hval Hcols Hin e1 cells c id HC Hc N) as (Hi & _ & _ & x & t & _ & _ & _ & Ht & Hx).
      split; [exact Hi|]. exists t, x. auto.
    - intros e2. exact (row_partner show_f64 parse_f64 g1 g2 wc eid info Hids Hcols Hin e1 e2 cells HC). }
  destruct (merge_all hav g1 g2 (wc_shortcuts wc) eid info es _ Hes F' D Hp Hinj) as (g2' & E & D' & I' & U' & C' & M & M'). clear F'.
  exists g2'. do 5 (split; [assumption|]). split; [|exact M'].
  intros e1 e2 c i id j x Hx P Hc Hl Ho Hj Hv.
  assert (He : In e1 es) by now apply Hes. destruct (In_nth_error _ _ He) as [n Hn].
  destruct (Forall2_nth _ _ _ _ _ F Hn) as (cells & Hcs & HC).
  destruct (M n e1 _ e2 c i Hn (map_nth_error _ _ _ Hcs) P Hc Hl) as (t & y & Ht & Hy & Hm).
  rewrite Hm. f_equal. destruct Hc as (id' & Hi & N & _).
  destruct (metric_cell_at show_f64 parse_f64 g1 g2 wc eid info Hval Hcols Hin e1 cells c id' HC Hi N) as (_ & id2 & j2 & x2 & t2 & Ho2 & Hj2 & Hx2 & Ht2 & Hv2).
  assert (id2 = id) by congruence. subst id2.
  assert (j2 = j). { apply idx_of_first in Hj, Hj2. congruence. } subst j2.
  assert (t2 = t) by congruence. subst t2. assert (x2 = y) by congruence. subst x2.
  destruct Hv as (z & Hz & Hv), Hx2 as (z' & Hz' & Hx2). assert (z' = z) by congruence. subst z'.
  destruct (wc_denormalizing wc), (means g1) as [mm|]; try congruence.
  destruct Hv as (m & A & ->), Hx2 as (m' & B & ->). congruence.
Qed.
Print Assumptions C50_merged.

(** *** Exported workloads *)

(** Exported numbers of routes can be merged, too: every partner gets the number
    of its edge, in the metric called [mid]; nothing else changes. *)
Theorem C50_workloads show_f64 parse_f64 hav g1 g2 wc ws infos file eid mid i :
  write_evaluation show_f64 g1 wc ws = Ok (infos, file) ->
  (wc_header wc = true -> forall id, In (CMeta EdgeId id) (cats_of g1) ->
     ~ In LF (T id) /\ exists c t, T id = c :: t /\ c <> HASH /\ c <> CR) ->
  (forall e k, edge_try_id g1 e = Ok (Some k) -> (N.of_nat k <= U64_MAX)%N) ->
  (forall n, In n ws -> parse_f64 (show_nat n) = Some (of_nat n)) ->
  mid <> eid -> first_at (ids_of g2) mid i -> described g2 ->
  (forall e1, exported g1 (wc_shortcuts wc) e1 -> exists e2, e2 < edge_count g2 FWD /\ partners g1 g2 e1 e2) ->
  (forall e1 e1' e2, exported g1 (wc_shortcuts wc) e1 -> exported g1 (wc_shortcuts wc) e1' ->
     partners g1 g2 e1 e2 -> partners g1 g2 e1' e2 -> e1 = e1') ->
  write_edges show_f64 g1 wc = Ok infos /\
  exists g2', gen_step hav g2 (GMerge (merge_rows parse_f64 (wc_header wc) file) eid [MId eid; MId mid]) = Ok g2' /\
    described g2' /\ ids_of g2' = ids_of g2 /\ units_of g2' = units_of g2 /\ edge_count g2' FWD = edge_count g2 FWD /\
    (forall e1 e2, exported g1 (wc_shortcuts wc) e1 -> partners g1 g2 e1 e2 ->
       exists n, nth_error ws e1 = Some n /\ metric_of g2' e2 i = Some (of_nat n)) /\
    (forall e2 j, j <> i \/ (forall e1, exported g1 (wc_shortcuts wc) e1 -> ~ partners g1 g2 e1 e2) ->
       metric_of g2' e2 j = metric_of g2 e2 j).
Proof.
  intros W Hh Hids Hws Nm Hi D Hp Hinj. unfold write_evaluation in W. apply bind_ok in W. destruct W as (f1 & W1 & W).
  destruct (edge_id_name (ec_categories (cfg_edges (g_cfg g1)))) as [id|] eqn:Eid; [|discriminate].
  apply bind_ok in W. destruct W as (f2 & W2 & W). assert (f1 = infos) by congruence. assert (f2 = file) by congruence. subst f1 f2. clear W.
  split; [exact W1|].
  assert (Hid : In (CMeta EdgeId id) (cats_of g1)).
  { unfold cats_of. clear - Eid. induction (ec_categories (cfg_edges (g_cfg g1))) as [|c cs IH]; [discriminate|].
    cbn [edge_id_name] in Eid. destruct c as [[] i|u i|]; try (right; now apply IH). injection Eid as ->. now left. }
  destruct (C37_values _ _ _ _ W2) as (es & cellss & Hes & Ef & F). cbn [workloads_cfg wc_shortcuts wc_header wc_ids] in Hes, Ef.
  assert (F1 : Forall2 (fun e cells => exists k n, edge_try_id g1 e = Ok (Some k) /\ nth_error ws e = Some n /\ cells = [show_nat k; show_nat n]) es cellss).
  { clear - F. induction F as [|e cells es cellss (k & v & A & B & C) F IH]; constructor; [|exact IH].
    rewrite nth_error_map in B. destruct (nth_error ws e) as [n|]; [|discriminate]. injection B as <-. exists k, n. auto. }
  assert (G : Forall (fun cells => Forall good_cell cells /\ cells <> []) cellss).
  { clear - F1. induction F1 as [|e cells es cellss (k & n & _ & _ & ->) F IH]; constructor; [|exact IH]. split; [|discriminate].
    constructor; [apply good_N|]. constructor; [apply good_N|constructor]. }
  assert (Hl : functional_lines (concat (map (fun cells => line (spaced cells)) cellss)) = map spaced cellss).
  { rewrite <- (map_map spaced line). apply functional_all. apply Forall_forall. intros l Hl. apply in_map_iff in Hl. destruct Hl as (cells & <- & Hl).
    rewrite Forall_forall in G. destruct (G _ Hl) as [Gc Gn]. now apply good_row. }
  assert (Hls : (if wc_header wc then skipn 1 (functional_lines file) else functional_lines file) = map spaced cellss).
  { rewrite <- Hl, Ef. destruct (wc_header wc); [|reflexivity]. destruct (Hh eq_refl id Hid) as (HLF & c & t & Ec & Hc).
    apply (header_dropped [Some id; Some NUM_ROUTES]); [discriminate|]. split.
    - intros x [Hx|[Hx|[]]]; injection Hx as <-; [exact HLF|]. cbn. intros Hx. repeat (destruct Hx as [Hx|Hx]; [discriminate Hx|]). exact Hx.
    - intros x l Hx. injection Hx as <- _. eauto. }
  assert (Er : merge_rows parse_f64 (wc_header wc) file = map (map (token_of parse_f64)) cellss).
  { unfold merge_rows. rewrite Hls, map_map. apply map_ext_in. intros cells Hc. rewrite Forall_forall in G. destruct (G _ Hc) as [Gc Gn].
    destruct (good_row _ Gc Gn) as (-> & _). reflexivity. }
  rewrite Er.
  assert (Tu : forall e k, edge_try_id g1 e = Ok (Some k) -> tok_usize (token_of parse_f64 (show_nat k)) = Some k).
  { intros e k Hk. cbn [token_of tok_usize]. rewrite parse_usize_nat by (eapply Hids; exact Hk). cbn [option_map]. now rewrite Nat2N.id. }
  assert (F' : Forall2 (fun e1 row => row_fits (ids_of g2) eid [MId eid; MId mid] row /\
                          forall e2, row_names g2 eid [MId eid; MId mid] row e2 <-> partners g1 g2 e1 e2)
                 es (map (map (token_of parse_f64)) cellss)).
  { clear - F1 Hws Nm Hi Tu. induction F1 as [|e1 cells es cellss (k & n & Hk & Hn & ->) F IH]; cbn [map]; constructor; [|exact IH]. split.
    - split; [reflexivity|]. intros [|[|c]] x Hx N; [injection Hx as <-; congruence|injection Hx as <-|destruct c; discriminate].
      split; [eapply nth_error_In; apply Hi|]. exists (token_of parse_f64 (show_nat n)), (of_nat n). split; [reflexivity|].
      apply Hws. eapply nth_error_In; exact Hn.
    - intros e2. split.
      + intros (c & t & raw & Hc & _ & Ht & Hu & He). destruct c as [|[|c]]; [|injection Hc as ->; congruence|destruct c; discriminate].
        injection Ht as <-. rewrite (Tu _ _ Hk) in Hu. injection Hu as <-. exists k. auto.
      + intros (k' & Hk' & He). assert (k' = k) by congruence. subst k'. exists 0, (token_of parse_f64 (show_nat k)), k.
        split; [reflexivity|]. split; [intros; lia|]. split; [reflexivity|]. split; [exact (Tu _ _ Hk)|exact He]. }
  destruct (merge_all hav g1 g2 (wc_shortcuts wc) eid [MId eid; MId mid] es _ Hes F' D Hp Hinj) as (g2' & E & D' & I' & U' & C' & M & M'). clear F'.
  assert (Hcol : forall c j, merged_column g2 eid [MId eid; MId mid] c j -> c = 1 /\ j = i).
  { intros c j (x & Hx & N & Hj). destruct c as [|[|c]]; [injection Hx as <-; congruence|injection Hx as <-|destruct c; discriminate].
    split; [reflexivity|]. apply idx_of_first in Hi, Hj. congruence. }
  exists g2'. do 5 (split; [assumption|]). split.
  - intros e1 e2 Hx P. assert (He : In e1 es) by now apply Hes. destruct (In_nth_error _ _ He) as [m Hm].
    destruct (Forall2_nth _ _ _ _ _ F1 Hm) as (cells & Hcs & k & n & Hk & Hn & ->).
    destruct (M m e1 _ e2 1 i Hm (map_nth_error _ _ _ Hcs) P) as (t & y & Ht & Hy & Hm').
    + exists mid. auto.
    + intros c' L Hc'. apply Hcol in Hc'. lia.
    + exists n. split; [exact Hn|]. injection Ht as <-. cbn [token_of tok_f64] in Hy.
      rewrite Hws in Hy by (eapply nth_error_In; exact Hn). rewrite Hm'. congruence.
  - intros e2 j H. apply M'. destruct H as [H|H]; [left|right; exact H]. intros c Hc. apply Hcol in Hc. lia.
Qed.
Print Assumptions C50_workloads.

(** *** Cases *)

(** lengths without those of shortcuts, into a graph with other indices *)
Definition mg_wc : edges_cfg :=
  {| wc_shortcuts := false; wc_header := true; wc_denormalizing := true; wc_ids := [Some "m"; Some "src"; Some "id"; None; Some "km"; Some "m"] |}.
Definition mg_info : list merge_cat := [MId "speed"; MIgnored; MId "id"; MIgnored; MId "speed"; MId "hav"].
Lemma mg_exported e : exported wr_graph false e <-> e = 0 \/ e = 2 \/ e = 3.
Proof.
  unfold exported. split.
  - intros [L [H|H]]; [discriminate|]. change (e < 4) in L. destruct e as [|[|[|[|e]]]]; auto; [vm_compute in H; discriminate|lia].
  - intros [->|[->| ->]]; (split; [vm_compute; lia|right; vm_compute; reflexivity]).
Qed.
Lemma mg_partners e1 e2 : partners wr_graph all_gen_graph e1 e2 -> (e1, e2) = (0, 1) \/ (e1, e2) = (1, 0) \/ (e1, e2) = (2, 2) \/ (e1, e2) = (3, 3).
Proof.
  intros (k & Hk & He). do 4 (destruct e1 as [|e1]; [vm_compute in Hk; injection Hk as <-; vm_compute in He; injection He as <-; auto|]).
  destruct e1; discriminate.
Qed.
Lemma mg_all e1 : exported wr_graph false e1 -> exists e2, e2 < edge_count all_gen_graph FWD /\ partners wr_graph all_gen_graph e1 e2.
Proof.
  intros H. apply mg_exported in H. destruct H as [->|[->| ->]]; [exists 1|exists 2|exists 3];
    (split; [vm_compute; lia|eexists; split; vm_compute; reflexivity]).
Qed.
Lemma mg_one e1 e1' e2 : exported wr_graph false e1 -> exported wr_graph false e1' ->
  partners wr_graph all_gen_graph e1 e2 -> partners wr_graph all_gen_graph e1' e2 -> e1 = e1'.
Proof.
  intros _ _ P P'. apply mg_partners in P, P'.
  destruct P as [P|[P|[P|P]]], P' as [P'|[P'|[P'|P']]]; congruence.
Qed.
Lemma mg_sized e i : edge_try_id wr_graph e = Ok (Some i) -> (N.of_nat i <= U64_MAX)%N.
Proof.
  intros H. do 4 (destruct e as [|e]; [vm_compute in H; injection H as <-; apply N.leb_le; vm_compute; reflexivity|]). destruct e; discriminate.
Qed.
Lemma mg_described : described all_gen_graph.
Proof.
  apply (proj1 (desc_described all_gen_graph)). split; [reflexivity|]. split; [reflexivity|].
  intros e m H. do 4 (destruct e as [|e]; [injection H as <-; reflexivity|]). destruct e; discriminate.
Qed.
Lemma mg_columns : Forall2 (merged_as wr_graph all_gen_graph "id") (wc_ids mg_wc) mg_info.
Proof.
  repeat constructor.
  - apply merged_metric with Meters; [now apply first_called_spec|discriminate|simpl; auto].
  - now apply first_called_spec.
  - apply merged_metric with Kilometers; [now apply first_called_spec|discriminate|simpl; auto].
  - apply merged_metric with Meters; [now apply first_called_spec|discriminate|simpl; auto].
Qed.
Lemma mg_names : names_readable (wc_ids mg_wc).
Proof.
  split.
  - intros id H. simpl in H. intros Hl.
    repeat (destruct H as [H|H]; [try discriminate H; injection H as <-; vm_compute in Hl; repeat (destruct Hl as [Hl|Hl]; [discriminate Hl|]); exact Hl|]). exact H.
  - intros id l H. injection H as <- _. do 2 eexists. split; [reflexivity|]. split; discriminate.
Qed.
Example C50_merged_case : exists file g,
  write_edges show_frac wr_graph mg_wc = Ok file /\
  names_readable (wc_ids mg_wc) /\ (forall x, written_value wr_graph true x -> survives show_frac parse_frac x) /\
  Forall2 (merged_as wr_graph all_gen_graph "id") (wc_ids mg_wc) mg_info /\ described all_gen_graph /\
  (forall e1, exported wr_graph false e1 -> exists e2, e2 < edge_count all_gen_graph FWD /\ partners wr_graph all_gen_graph e1 e2) /\
  gen_step ex_hav all_gen_graph (GMerge (merge_rows parse_frac true file) "id" mg_info) = Ok g /\
  metrics g = [[Fin 5; Fin 90; Fin 1; Fin (300 # 50); Fin 5000];
               [Fin 2; Fin 2; Fin 2000; Fin (120 # 50); Fin 2000];
               [Fin 3; Fin 3; Fin 3000; Fin (180 # 50); Fin 3000];
               [Fin 0.000001; Fin 0.000001; Fin 0.001000; Fin (60 # 50000000); Fin 0.001000]].
Proof.
  do 2 eexists. split; [vm_compute; reflexivity|]. split; [exact mg_names|]. split; [exact rt_survive|]. split; [exact mg_columns|].
  split; [exact mg_described|]. split; [exact mg_all|]. split; vm_compute; reflexivity.
Qed.

Definition parse_int (s : text) : option f64 := option_map (fun n => of_nat (N.to_nat n)) (parse_usize s).
Example C50_workloads_case : exists infos file g,
  write_evaluation show_frac wr_graph mg_wc [7; 8; 0; 12] = Ok (infos, file) /\
  lines file = [T "id num_routes"; T "1 7"; T "2 0"; T "4 12"] /\
  (forall id, In (CMeta EdgeId id) (cats_of wr_graph) -> ~ In LF (T id) /\ exists c t, T id = c :: t /\ c <> HASH /\ c <> CR) /\
  (forall n, In n [7; 8; 0; 12] -> parse_int (show_nat n) = Some (of_nat n)) /\
  first_at (ids_of all_gen_graph) "hav" 2 /\
  gen_step ex_hav all_gen_graph (GMerge (merge_rows parse_int true file) "id" [MId "id"; MId "hav"]) = Ok g /\
  map (fun e => metric_of g e 2) [0; 1; 2; 3] = [Some (Fin 1); Some (Fin 7); Some (Fin 0); Some (Fin 12)].
Proof.
  do 3 eexists. split; [vm_compute; reflexivity|]. split; [vm_compute; reflexivity|]. split.
  { intros id H. simpl in H. repeat (destruct H as [H|H]; [first [discriminate H|injection H as <-; split;
      [vm_compute; intros Hl; repeat (destruct Hl as [Hl|Hl]; [discriminate Hl|]); exact Hl|do 2 eexists; split; [reflexivity|]; split; discriminate]]|]). destruct H. }
  split; [intros n [<-|[<-|[<-|[<-|[]]]]]; vm_compute; reflexivity|].
  split; [split; [reflexivity|]; intros [|[|j]] L; try discriminate; lia|]. split; vm_compute; reflexivity.
Qed.

(** finding: the reader drops comments before dropping the header.  If the
    header's first name starts with a number sign, the first edge is lost. *)
Definition mg_cfg : cfg :=
  {| cfg_edges := {| ec_categories := [CMeta SrcId "src"; CMeta DstId "dst"; CMetric Kilometers "km"; CMeta EdgeId "#id"];
                     ec_normalized := false; ec_units := [Kilometers]; ec_ids := ["km"] |};
     cfg_nodes := []; cfg_gen_nodes := []; cfg_gen_edges := [] |}.
Definition mg_graph : graph := Eval vm_compute in unok empty_graph (build ex_hav mg_cfg 2 3 ex_es wr_ns).
Definition mg_wc' : edges_cfg :=
  {| wc_shortcuts := true; wc_header := true; wc_denormalizing := false; wc_ids := [Some "#id"; Some "km"] |}.
Theorem C50_header_refuted : exists show_f64 parse_f64 hav c es ns g1 g2 wc info file g2' e1 e2 i j x,
  build hav c 2 3 es ns = Ok g1 /\ write_edges show_f64 g1 wc = Ok file /\ wc_header wc = true /\
  (forall x, written_value g1 (wc_denormalizing wc) x -> survives show_f64 parse_f64 x) /\
  Forall2 (merged_as g1 g2 "id") (wc_ids wc) info /\ In (MId "id") info /\ described g2 /\
  gen_step hav g2 (GMerge (merge_rows parse_f64 true file) "id" info) = Ok g2' /\
  exported g1 (wc_shortcuts wc) e1 /\ partners g1 g2 e1 e2 /\ merged_column g2 "id" info 1 i /\
  nth_error (wc_ids wc) 1 = Some (Some "km") /\ first_at (ids_of g1) "km" j /\
  exported_metric g1 (wc_denormalizing wc) e1 j x /\ metric_of g2' e2 i <> Some x.
Proof.
  exists show_frac, parse_frac, ex_hav, mg_cfg, ex_es, wr_ns, mg_graph, all_gen_graph, mg_wc', [MId "id"; MId "hav"].
  do 2 eexists. exists 0, 1, 2, 0, (Fin 2).
  split; [vm_compute; reflexivity|]. split; [vm_compute; reflexivity|]. split; [reflexivity|]. split.
  { intros x [(i & c & H & Hx)|(e & i & y & Hy & Hx)].
    - do 3 (destruct i as [|i]; [vm_compute in H; injection H as <-; destruct Hx as [->| ->]; apply survives_ok; vm_compute; reflexivity|]). destruct i; discriminate.
    - change (x = y) in Hx. subst y.
      do 4 (destruct e as [|e]; [destruct i as [|i]; [vm_compute in Hy; injection Hy as <-; apply survives_ok; vm_compute; reflexivity|destruct i; discriminate]|]).
      destruct e; discriminate. }
  split.
  { constructor; [apply merged_id; now apply first_called_spec|]. constructor; [|constructor].
    apply merged_metric with Kilometers; [now apply first_called_spec|discriminate|simpl; auto]. }
  split; [now left|]. split; [exact mg_described|]. split; [vm_compute; reflexivity|].
  split; [split; [vm_compute; lia|now left]|]. split; [eexists; split; vm_compute; reflexivity|].
  split. { exists "hav". split; [reflexivity|]. split; [discriminate|]. split; [reflexivity|]. intros [|[|k]] L; try discriminate; lia. }
  split; [reflexivity|]. split; [split; [reflexivity|intros; lia]|].
  split; [exists (Fin 2); split; vm_compute; reflexivity|]. vm_compute. discriminate.
Qed.
Print Assumptions C50_header_refuted.
