(** Property C37: exported edges *)
From Coq Require Import String Ascii List Bool Arith NArith ZArith QArith Lia Sorting.Sorted.
From Verif Require Import Base F64 ModelText ModelUnits ModelConfig ModelGraph ModelBuild Lib ProofProps Spec Examples
  SpecGenerate ProofGenerate PropsGraph ModelParsing ModelFmi ModelWriting SpecWriting.
Import ListNotations.
Open Scope string_scope.
Open Scope list_scope.
Open Scope nat_scope.

(** the line naming the columns *)
Definition names_of_columns (ids : list (option string)) : text :=
  line (spaced (map (fun o => match o with Some id => T id | None => T "_" end) ids)).

Lemma is_shortcut_none g e : is_shortcut g e = Ok false <-> sc_edges g e = Ok None.
Proof.
  unfold sc_edges. destruct (is_shortcut g e) as [[|]| | |]; cbn [bind]; split; try discriminate; auto.
  destruct (idx (sc_offsets g) e) as [o| | |]; cbn [bind]; try discriminate.
  destruct (idx (sc_edges_arr g) o) as [p| | |]; cbn [bind]; discriminate.
Qed.
Lemma is_written_spec g sc e b : is_written g sc e = Ok b ->
  (b = true <-> sc = true \/ sc_edges g e = Ok None).
Proof.
  unfold is_written. destruct sc; [intros H; injection H as <-; tauto|].
  rewrite <- is_shortcut_none. destruct (is_shortcut g e) as [[|]| | |]; cbn [bind]; intros H; try discriminate; injection H as <-; cbn [negb];
    (split; [|intros [H|H]]; try discriminate; auto).
Qed.

(** rows of consecutive edges *)
Lemma edge_rows_spec g sc row : forall n k rows, edge_rows g sc row (seq k n) = Ok rows ->
  exists es, StronglySorted lt es /\
    (forall e, In e es <-> k <= e < k + n /\ (sc = true \/ sc_edges g e = Ok None)) /\
    Forall2 (fun e r => row e = Ok r) es rows.
Proof.
  induction n as [|n IH]; intros k rows; cbn [seq edge_rows].
  - intros H. injection H as <-. exists []. split; [constructor|]. split; [|constructor].
    intros e. split; [intros []|intros [H _]; lia].
  - destruct (is_written g sc k) as [b| | |] eqn:Eb; cbn [bind]; try discriminate.
    pose proof (is_written_spec _ _ _ _ Eb) as Hb. destruct b.
    + destruct (row k) as [r| | |] eqn:Er; cbn [bind]; try discriminate.
      destruct (edge_rows g sc row (seq (S k) n)) as [rs| | |] eqn:Ers; cbn [bind]; try discriminate.
      intros H. injection H as <-. destruct (IH (S k) rs Ers) as (es & Hs & Hin & HF).
      exists (k :: es). split.
      * constructor; auto. apply Forall_forall. intros e He. apply Hin in He. lia.
      * split; [|constructor; auto]. intros e. cbn [In]. rewrite Hin. split.
        -- intros [<-|[A B]]; [split; [lia|tauto]|split; [lia|auto]].
        -- intros [A B]. destruct (Nat.eq_dec k e) as [->|N]; [auto|right; split; [lia|auto]].
    + intros H. destruct (IH (S k) rows H) as (es & Hs & Hin & HF). exists es. split; auto. split; auto.
      intros e. rewrite Hin. split.
      * intros [A B]. split; [lia|auto].
      * intros [A B]. split; [|auto]. destruct (Nat.eq_dec k e) as [->|N]; [|lia].
        exfalso. assert (false = true) by (apply Hb; auto). discriminate.
Qed.
Lemma edge_rows_exported g sc row rows : edge_rows g sc row (seq 0 (edge_count g FWD)) = Ok rows ->
  exists es, exported_edges g sc es /\ Forall2 (fun e r => row e = Ok r) es rows.
Proof.
  intros H. destruct (edge_rows_spec _ _ _ _ _ _ H) as (es & A & B & C). exists es. split; auto. split; auto.
  intros e. rewrite B. split; intros [X Y]; split; auto; lia.
Qed.

(** the category used for a column *)
Lemma find_cell_spec show g denorm e id : forall cs t,
  find_cell show g denorm e id cs = Ok t ->
  exists before c after, cs = before ++ c :: after /\ category_id c = Some id /\
    (forall c', In c' before -> category_id c' <> Some id) /\
    match c with
    | CMeta info _ => meta_cell show g e info = Ok t
    | CMetric _ _ => metric_cell show g denorm e id = Ok t
    | CIgnored => False
    end.
Proof.
  induction cs as [|c cs IH]; intros t; [discriminate|].
  assert (Hskip : category_id c <> Some id -> find_cell show g denorm e id cs = Ok t ->
    exists before c0 after, c :: cs = before ++ c0 :: after /\ category_id c0 = Some id /\
    (forall c', In c' before -> category_id c' <> Some id) /\
    match c0 with
    | CMeta info _ => meta_cell show g e info = Ok t
    | CMetric _ _ => metric_cell show g denorm e id = Ok t
    | CIgnored => False
    end).
  { intros Hn H. destruct (IH t H) as (b & c0 & a & -> & H1 & H2 & H3). exists (c :: b), c0, a.
    split; [reflexivity|]. split; auto. split; auto. intros c' [<-|Hc]; auto. }
  destruct c as [info id'|u id'|]; cbn [find_cell].
  - destruct (String.eqb_spec id' id) as [->|N].
    + intros H. exists [], (CMeta info id), cs. split; [reflexivity|]. split; [reflexivity|]. split; [intros c' []|exact H].
    + intros H. apply Hskip; auto. cbn. congruence.
  - destruct (String.eqb_spec id' id) as [->|N].
    + intros H. exists [], (CMetric u id), cs. split; [reflexivity|]. split; [reflexivity|]. split; [intros c' []|exact H].
    + intros H. apply Hskip; auto. cbn. congruence.
  - intros H. apply Hskip; auto. cbn. congruence.
Qed.
Lemma find_cell_called show g denorm e id t : find_cell show g denorm e id (cats_of g) = Ok t ->
  (exists info, called g id (CMeta info id) /\ meta_cell show g e info = Ok t) \/
  (exists u, called g id (CMetric u id) /\ metric_cell show g denorm e id = Ok t).
Proof.
  intros H. destruct (find_cell_spec _ _ _ _ _ _ _ H) as (b & c & a & Hc & H1 & H2 & H3).
  destruct c as [info id'|u id'|]; [left; exists info|right; exists u|destruct H3];
    cbn in H1; injection H1 as ->; (split; [exists b, a; auto|exact H3]).
Qed.

Lemma meta_tells show g e s d info t : edge_from_to g e s d -> meta_cell show g e info = Ok t ->
  info = DstLat \/ info = DstLon \/ tells show g e s d info t.
Proof.
  intros [Hs Hd]. destruct info; cbn [meta_cell]; rewrite ?Hs, ?Hd; cbn [bind]; auto; intros H; right; right.
  - unfold edge_id in H. destruct (edge_try_id g e) as [[i|]| | |] eqn:Ei; cbn [bind expect] in H; try discriminate.
    injection H as <-. now constructor.
  - destruct (node_id g s) as [i| | |] eqn:Ei; cbn [bind] in H; try discriminate. injection H as <-. now constructor.
  - injection H as <-. constructor.
  - destruct (node_coord g s) as [c| | |] eqn:Ei; cbn [bind] in H; try discriminate. injection H as <-. now constructor.
  - destruct (node_coord g s) as [c| | |] eqn:Ei; cbn [bind] in H; try discriminate. injection H as <-. now constructor.
  - destruct (node_id g d) as [i| | |] eqn:Ei; cbn [bind] in H; try discriminate. injection H as <-. now constructor.
  - injection H as <-. constructor.
  - destruct (sc_edges g e) as [[[x y]|]| | |] eqn:Ei; cbn [bind] in H; try discriminate; injection H as <-; cbn [sc_cell fst snd].
    + now apply tells_sc0 with y.
    + now apply tells_no_sc0.
  - destruct (sc_edges g e) as [[[x y]|]| | |] eqn:Ei; cbn [bind] in H; try discriminate; injection H as <-; cbn [sc_cell fst snd].
    + now apply tells_sc1 with x.
    + now apply tells_no_sc1.
Qed.
Lemma metric_exported show g denorm e id t : metric_cell show g denorm e id = Ok t ->
  exists i x, first_at (ids_of g) id i /\ exported_metric g denorm e i x /\ t = show x.
Proof.
  unfold metric_cell. destruct (idx_of (ec_ids (cfg_edges (g_cfg g))) id) as [i| | |] eqn:Ei; cbn [bind]; try discriminate.
  destruct (edge_metrics g e) as [ms| | |] eqn:Em; cbn [bind]; try discriminate.
  destruct (idx ms i) as [y| | |] eqn:Ey; cbn [bind]; try discriminate.
  apply idx_of_first in Ei.
  assert (Hm : metric_of g e i = Some y).
  { apply idx_ok in Ey. apply idx_ok in Em. rewrite metric_of_nth. now rewrite Em. }
  destruct denorm.
  - unfold metric_mean. destruct (means g) as [mm|] eqn:Emm; cbn [bind].
    + destruct (idx mm i) as [m| | |] eqn:E; cbn [bind]; try discriminate. intros H. injection H as <-.
      exists i, (fmul y m). split; auto. split; auto. exists y. split; auto. rewrite Emm. exists m. split; auto. now apply idx_ok.
    + intros H. injection H as <-. exists i, y. split; auto. split; auto. exists y. split; auto. now rewrite Emm.
  - intros H. injection H as <-. exists i, y. split; auto. split; auto. exists y. split; auto.
Qed.

(** every cell of a column not asking for the destination's coordinates is right *)
Lemma cell_fits show g denorm e s d o t : edge_from_to g e s d -> edge_cell show g denorm e o = Ok t ->
  dst_coord_column g o \/ fits_column show g denorm e s d o t.
Proof.
  intros Hsd. destruct o as [id|]; cbn [edge_cell].
  - intros H. destruct (find_cell_called _ _ _ _ _ _ H) as [(info & Hc & Hm)|(u & Hc & Hm)].
    + destruct (meta_tells _ _ _ _ _ _ _ Hsd Hm) as [->|[->|Ht]].
      * left. exists id. auto.
      * left. exists id. auto.
      * right. now apply fits_meta with info.
    + right. destruct (metric_exported _ _ _ _ _ _ Hm) as (i & x & Hi & Hx & ->). now apply fits_metric with u i.
  - intros H. injection H as <-. right. constructor.
Qed.

(** Writing edges: after the line with the columns' names, there is one line for
    each edge (each plain edge, if shortcuts are not wanted), ordered by index;
    each column contains what it is called - if it does not ask for coordinates
    of the destination. *)
Theorem C37_rows_partial show g wc file : write_edges show g wc = Ok file ->
  exists es rows,
    exported_edges g (wc_shortcuts wc) es /\
    file = (if wc_header wc then names_of_columns (wc_ids wc) else []) ++
           concat (map (fun cells => line (spaced cells)) rows) /\
    Forall2 (fun e cells => forall s d, edge_from_to g e s d ->
       Forall2 (fun o t => dst_coord_column g o \/ fits_column show g (wc_denormalizing wc) e s d o t)
               (wc_ids wc) cells) es rows.
Proof.
  unfold write_edges.
  destruct (edge_rows g (wc_shortcuts wc) (edge_row show g wc) (seq 0 (edge_count g FWD))) as [rs| | |] eqn:E; cbn [bind]; try discriminate.
  intros H. injection H as <-. destruct (edge_rows_exported _ _ _ _ E) as (es & Hes & HF).
  assert (Hrows : exists rows, rs = map (fun cells => line (spaced cells)) rows /\
    Forall2 (fun e cells => mapM (edge_cell show g (wc_denormalizing wc) e) (wc_ids wc) = Ok cells) es rows).
  { clear E Hes. induction HF as [|e r es rs Hr HF (rows & -> & IH)]; [exists []; auto|].
    unfold edge_row in Hr. destruct (mapM _ (wc_ids wc)) as [cells| | |] eqn:Ec; cbn [bind] in Hr; try discriminate.
    injection Hr as <-. exists (cells :: rows). split; [reflexivity|]. constructor; auto. }
  destruct Hrows as (rows & -> & HR). exists es, rows. split; auto. split; [reflexivity|].
  clear - HR. induction HR as [|e cells es rows Hc HR IH]; constructor; auto.
  intros s d Hsd. apply mapM_ok in Hc. clear - Hc Hsd. induction Hc; constructor; auto.
  eapply cell_fits; eauto.
Qed.
Print Assumptions C37_rows_partial.

(** columns for the destination's coordinates contain the source's *)
Theorem C37_dst_coord show g denorm e s d id t :
  edge_from_to g e s d -> edge_cell show g denorm e (Some id) = Ok t ->
  (called g id (CMeta DstLat id) -> tells show g e s d SrcLat t) /\
  (called g id (CMeta DstLon id) -> tells show g e s d SrcLon t).
Proof.
  intros [Hs Hd] H. cbn [edge_cell] in H.
  assert (Hu : forall c, called g id c -> match c with
    | CMeta info _ => meta_cell show g e info = Ok t | _ => True end).
  { intros c (b & a & Hc & Hid & Hb). destruct (find_cell_spec _ _ _ _ _ _ _ H) as (b' & c' & a' & Hc' & Hid' & Hb' & Hm).
    assert (c = c').
    { change (cats_of g = b' ++ c' :: a') in Hc'. rewrite Hc in Hc'. clear - Hc' Hid Hid' Hb Hb'. revert b' Hc' Hb'.
      induction b as [|x b IH]; intros [|x' b'] Hc' Hb'; cbn [app] in Hc'.
      - now injection Hc'.
      - injection Hc' as -> _. exfalso. apply (Hb' x'); [now left|auto].
      - injection Hc' as <- _. exfalso. apply (Hb x); [now left|auto].
      - injection Hc' as <- Hc'. apply (IH (fun c' H => Hb c' (or_intror H)) b' Hc'). intros y Hy. apply Hb'. now right. }
    subst c'. destruct c; auto. }
  split; intros Hc; apply Hu in Hc; cbn [meta_cell] in Hc; rewrite Hs in Hc; cbn [bind] in Hc;
    destruct (node_coord g s) as [c| | |] eqn:Ec; cbn [bind] in Hc; try discriminate; injection Hc as <-; now constructor.
Qed.
Print Assumptions C37_dst_coord.

(** An id without category is never accepted, provided there is an edge to write *)
Theorem C37_unknown show g wc id e file : In (Some id) (wc_ids wc) ->
  (forall c, In c (cats_of g) -> category_id c <> Some id) ->
  e < edge_count g FWD -> wc_shortcuts wc = true \/ sc_edges g e = Ok None ->
  write_edges show g wc <> Ok file.
Proof.
  intros Hid Hc He Hsc. unfold write_edges.
  destruct (edge_rows g (wc_shortcuts wc) (edge_row show g wc) (seq 0 (edge_count g FWD))) as [rs| | |] eqn:E; cbn [bind]; try discriminate.
  intros _. destruct (edge_rows_exported _ _ _ _ E) as (es & [_ Hes] & HF).
  assert (Hin : In e es) by (apply Hes; auto). clear E Hes.
  destruct (In_nth_error _ _ Hin) as [k Hk]. destruct (Forall2_nth _ _ _ _ _ HF Hk) as (r & _ & Hr).
  unfold edge_row in Hr. destruct (mapM _ (wc_ids wc)) as [cells| | |] eqn:Ec; cbn [bind] in Hr; try discriminate.
  apply mapM_ok in Ec. destruct (In_nth_error _ _ Hid) as [j Hj]. destruct (Forall2_nth _ _ _ _ _ Ec Hj) as (t & _ & Ht).
  cbn [edge_cell] in Ht. destruct (find_cell_spec _ _ _ _ _ _ _ Ht) as (b & c & a & Hcs & H1 & _).
  apply (Hc c); auto. unfold cats_of. rewrite Hcs. apply in_elt.
Qed.
Print Assumptions C37_unknown.

(** Writing succeeds for built graphs if every column exists and edge ids, if
    asked for, have been given to all edges. *)
Definition asks_known (g : graph) (o : option string) : Prop :=
  forall id, o = Some id -> exists c, called g id c /\
    ((exists u, c = CMetric u id) \/
     (exists info, c = CMeta info id /\
        (info = EdgeId -> forall e, e < edge_count g FWD -> exists i, edge_try_id g e = Ok (Some i)))).

Lemma find_cell_first show g denorm e id c before after : cats_of g = before ++ c :: after ->
  category_id c = Some id -> (forall c', In c' before -> category_id c' <> Some id) ->
  find_cell show g denorm e id (cats_of g) =
  match c with CMeta info _ => meta_cell show g e info | _ => metric_cell show g denorm e id end.
Proof.
  intros -> Hc Hb. induction before as [|x before IH]; cbn [app].
  - destruct c as [info i|u i|]; cbn in Hc; try discriminate; injection Hc as ->; cbn [find_cell]; now rewrite String.eqb_refl.
  - assert (Hx : category_id x <> Some id) by (apply Hb; now left).
    rewrite <- IH by (intros c' H; apply Hb; now right).
    destruct x as [info i|u i|]; cbn [find_cell]; auto; (destruct (String.eqb_spec i id) as [->|N]; [cbn in Hx; congruence|reflexivity]).
Qed.

Lemma edge_cell_total show hav c ch1 ch2 es ns g denorm e o :
  1 <= ch1 -> 1 <= ch2 -> build hav c ch1 ch2 es ns = Ok g ->
  described g -> cats_agree g -> means_described g -> e < edge_count g FWD -> asks_known g o ->
  exists t, edge_cell show g denorm e o = Ok t.
Proof.
  intros H1 H2 E D A M He Hk. destruct o as [id|]; [|eexists; reflexivity]. cbn [edge_cell].
  destruct (Hk id eq_refl) as (k & (b & a & Hc & Hid & Hb) & Hkind).
  change (ec_categories (cfg_edges (g_cfg g))) with (cats_of g). rewrite (find_cell_first show g denorm e id k b a Hc Hid Hb).
  destruct Hkind as [[u ->]|(info & -> & Hei)].
  - unfold metric_cell.
    assert (Hin : In id (ids_of g)).
    { destruct A as [<- _]. rewrite Hc, metric_ids_app. apply in_or_app. right. now left. }
    destruct (position id (ids_of g)) as [i|] eqn:Ep.
    2:{ exfalso. clear - Hin Ep. revert Hin Ep. generalize (ids_of g). induction l as [|x l IH]; [intros []|]. cbn [position In].
        destruct (String.eqb_spec x id) as [->|N]; [discriminate|]. intros [->|Hin] Ep; [congruence|].
        destruct (position id l); [discriminate|]. auto. }
    unfold idx_of. unfold ids_of in Ep. rewrite Ep. cbn [expect bind]. apply position_first in Ep. pose proof (first_lt _ _ _ Ep) as Hi.
    destruct D as (L & D1 & D2). destruct (proj1 (D1 e) He) as [ms Hms]. rewrite Hms. cbn [bind].
    pose proof (D2 _ _ Hms) as Hl. destruct (idx_lt ms i) as [x Hx]; [unfold ids_of in *; lia|].
    rewrite Hx. cbn [bind]. destruct denorm; [|eauto]. unfold metric_mean. destruct (means g) as [mm|] eqn:Em; cbn [bind]; [|eauto].
    specialize (M mm Em). destruct (idx_lt mm i) as [m Hm]; [unfold ids_of in *; lia|].
    rewrite Hm. cbn [bind]. eauto.
  - destruct (C07_edge_ends _ _ _ _ _ _ _ e H1 H2 E He) as (_ & s & d & [Hs Hd] & Ls & Ld & pe & _ & Is & Id).
    destruct (C03_all_coordinates _ _ _ _ _ _ _ H1 H2 E s Ls) as (nd & _ & _ & Cs).
    destruct (build_is_shortcut _ _ _ _ _ _ _ e H1 H2 E He) as (r & Hr & _).
    destruct info; cbn [meta_cell]; rewrite ?Hs, ?Hd; cbn [bind]; rewrite ?Is, ?Id, ?Cs, ?Hr; cbn [bind]; eauto.
    unfold edge_id. destruct (Hei eq_refl e He) as [i Hi]. rewrite Hi. cbn [bind expect]. eauto.
Qed.

Theorem C37_succeeds show hav c ch1 ch2 es ns g wc :
  1 <= ch1 -> 1 <= ch2 -> build hav c ch1 ch2 es ns = Ok g ->
  described g -> cats_agree g -> means_described g -> (forall o, In o (wc_ids wc) -> asks_known g o) ->
  exists file, write_edges show g wc = Ok file.
Proof.
  intros H1 H2 E D A M Hk. unfold write_edges.
  assert (Hr : forall l, (forall e, In e l -> e < edge_count g FWD) ->
    exists rows, edge_rows g (wc_shortcuts wc) (edge_row show g wc) l = Ok rows).
  { induction l as [|e l IH]; intros Hl; cbn [edge_rows]; [eauto|].
    assert (He : e < edge_count g FWD) by (apply Hl; now left).
    destruct IH as [rows Er]; [intros x Hx; apply Hl; now right|].
    assert (Hw : exists b, is_written g (wc_shortcuts wc) e = Ok b).
    { unfold is_written. destruct (wc_shortcuts wc); [eauto|].
      destruct (build_is_shortcut _ _ _ _ _ _ _ e H1 H2 E He) as (r & _ & Hb). rewrite Hb. cbn [bind]. eauto. }
    destruct Hw as [b Hb]. rewrite Hb. cbn [bind]. rewrite Er. destruct b; [|eauto].
    assert (Hrow : exists r, edge_row show g wc e = Ok r).
    { unfold edge_row. assert (Hm : exists cells, mapM (edge_cell show g (wc_denormalizing wc) e) (wc_ids wc) = Ok cells).
      { clear - H1 H2 E D A M Hk He. induction (wc_ids wc) as [|o ids IH]; cbn [mapM]; [eauto|].
        destruct (edge_cell_total show _ _ _ _ _ _ _ (wc_denormalizing wc) e o H1 H2 E D A M He (Hk o (or_introl eq_refl))) as [t Ht].
        rewrite Ht. cbn [bind]. destruct IH as [cells Ec]; [intros x Hx; apply Hk; now right|]. rewrite Ec. cbn [bind]. eauto. }
      destruct Hm as [cells Ec]. rewrite Ec. cbn [bind]. eauto. }
    destruct Hrow as [r Er']. rewrite Er'. cbn [bind]. eauto. }
  destruct (Hr (seq 0 (edge_count g FWD))) as [rows Er]; [intros e He; apply in_seq in He; lia|].
  rewrite Er. cbn [bind]. eauto.
Qed.
Print Assumptions C37_succeeds.

(** values of edges not stored in the graph: one line with the edge's id and
    its value for each edge to be exported *)
Theorem C37_values g wc values file : write_external_values g wc values = Ok file ->
  exists es rows,
    exported_edges g (wc_shortcuts wc) es /\
    file = (if wc_header wc then names_of_columns (wc_ids wc) else []) ++
           concat (map (fun cells => line (spaced cells)) rows) /\
    Forall2 (fun e cells => exists i v, edge_try_id g e = Ok (Some i) /\ nth_error values e = Some v /\
               cells = [show_nat i; v]) es rows.
Proof.
  unfold write_external_values.
  destruct (edge_rows g (wc_shortcuts wc) (value_row g values) (seq 0 (edge_count g FWD))) as [rs| | |] eqn:E; cbn [bind]; try discriminate.
  intros H. injection H as <-. destruct (edge_rows_exported _ _ _ _ E) as (es & Hes & HF).
  assert (Hrows : exists rows, rs = map (fun cells => line (spaced cells)) rows /\
    Forall2 (fun e cells => exists i v, edge_try_id g e = Ok (Some i) /\ nth_error values e = Some v /\ cells = [show_nat i; v]) es rows).
  { clear E Hes. induction HF as [|e r es rs Hr HF (rows & -> & IH)]; [exists []; auto|].
    unfold value_row, edge_id in Hr. destruct (edge_try_id g e) as [[i|]| | |] eqn:Ei; cbn [bind expect] in Hr; try discriminate.
    destruct (idx values e) as [v| | |] eqn:Ev; cbn [bind] in Hr; try discriminate. injection Hr as <-.
    exists ([show_nat i; v] :: rows). split; [reflexivity|]. constructor; auto. exists i, v. split; auto. split; auto. now apply idx_ok. }
  destruct Hrows as (rows & -> & HR). exists es, rows. auto.
Qed.
Print Assumptions C37_values.

(** *** Cases *)

(** shows the numerator of a number in lowest terms *)
Definition show_num (x : f64) : text := match x with Fin q => show_Z (Qnum (Qred q)) | _ => T "?" end.
(** all information about edges; latitudes and longitudes differ *)
Definition wr_cfg : cfg :=
  {| cfg_edges := {| ec_categories := [CMeta SrcId "src"; CMeta DstId "dst"; CMetric Kilometers "km"; CIgnored;
                                       CMeta ShortcutIdx0 "sc0"; CMeta ShortcutIdx1 "sc1"; CMeta EdgeId "id"];
                     ec_normalized := false; ec_units := [Kilometers]; ec_ids := ["km"] |};
     cfg_nodes := []; cfg_gen_nodes := [];
     cfg_gen_edges := [GMeta GSrcIdx "src-idx"; GMeta GDstIdx "dst-idx"; GMeta GSrcLat "src-lat"; GMeta GSrcLon "src-lon";
                       GMeta GDstLat "dst-lat"; GMeta GDstLon "dst-lon"; GCopy Kilometers "km" Meters "m"] |}.
Definition wr_node (id : Z) (x y : Q) : proto_node :=
  {| pn_id := id; pn_coord := {| lat := Fin x; lon := Fin y |}; pn_level := None |}.
Definition wr_ns : list proto_node := [wr_node 10 1 4; wr_node 20 2 5; wr_node 30 3 6].
Definition wr_graph : graph := Eval vm_compute in unok empty_graph (build ex_hav wr_cfg 2 3 ex_es wr_ns).
Lemma wr_build : build ex_hav wr_cfg 2 3 ex_es wr_ns = Ok wr_graph.
Proof. vm_compute. reflexivity. Qed.
Definition wr_wc (sc : bool) (ids : list (option string)) : edges_cfg :=
  {| wc_shortcuts := sc; wc_header := true; wc_denormalizing := true; wc_ids := ids |}.
Definition wr_ids : list (option string) :=
  [Some "id"; Some "src"; Some "dst-idx"; Some "src-lon"; Some "m"; None; Some "sc1"].

(** looking for the category called [id] *)
Fixpoint first_called (id : string) (cs : list category) : option category :=
  match cs with
  | [] => None
  | c :: cs => match category_id c with
               | Some i => if String.eqb i id then Some c else first_called id cs
               | None => first_called id cs
               end
  end.
Lemma first_called_spec g id c : first_called id (cats_of g) = Some c <-> called g id c.
Proof.
  unfold called. generalize (cats_of g). intros cs. split.
  - induction cs as [|x cs IH]; [discriminate|]. cbn [first_called]. intros H.
    assert (Hd : category_id x = Some id /\ c = x \/ category_id x <> Some id /\ first_called id cs = Some c).
    { destruct (category_id x) as [i|]; [|right; split; [discriminate|auto]].
      destruct (String.eqb i id) eqn:Ei; [apply String.eqb_eq in Ei; left; split; congruence|apply String.eqb_neq in Ei; right; split; [congruence|auto]]. }
    destruct Hd as [[Hx ->]|[Hx Hc]]; [exists [], cs; split; [reflexivity|]; split; auto; intros c' []|].
    destruct (IH Hc) as (b & a & -> & H1 & H2). exists (x :: b), a. split; [reflexivity|]. split; auto. intros c' [<-|Hc']; auto.
  - intros (b & a & -> & H1 & H2). induction b as [|x b IH]; cbn [app first_called].
    + now rewrite H1, String.eqb_refl.
    + assert (Hx : category_id x <> Some id) by (apply H2; now left). rewrite IH by (intros c' Hc'; apply H2; now right).
      destruct (category_id x) as [i|]; auto. destruct (String.eqb i id) eqn:Ei; [apply String.eqb_eq in Ei; congruence|auto].
Qed.

Example C37_case :
  (exists file, write_edges show_num wr_graph (wr_wc true wr_ids) = Ok file /\
     lines file = [T "id src dst-idx src-lon m _ sc1"; T "1 10 1 4 2000 _ -1"; T "3 10 2 4 5000 _ 2";
                   T "2 20 2 5 3000 _ -1"; T "4 30 0 6 1 _ -1"]) /\
  (exists file, write_edges show_num wr_graph (wr_wc false wr_ids) = Ok file /\ length (lines file) = 4) /\
  described wr_graph /\ cats_agree wr_graph /\ means_described wr_graph /\
  (forall o, In o wr_ids -> asks_known wr_graph o) /\ ~ (exists o, In o wr_ids /\ dst_coord_column wr_graph o) /\
  write_external_values wr_graph (wr_wc false [Some "id"; Some "v"]) [T "a"; T "b"; T "c"; T "d"] =
    Ok (line (T "id v") ++ line (T "1 a") ++ line (T "2 c") ++ line (T "4 d")).
Proof.
  split; [eexists; split; vm_compute; reflexivity|]. split; [eexists; split; vm_compute; reflexivity|].
  split.
  { apply (proj1 (desc_described wr_graph)). split; [reflexivity|]. split; [reflexivity|].
    intros e m H. do 4 (destruct e as [|e]; [injection H as <-; reflexivity|]). destruct e; discriminate. }
  split; [split; reflexivity|]. split; [intros ms H; discriminate|]. split.
  { intros o H id ->.
    assert (Hid : forall c, first_called id (cats_of wr_graph) = Some c -> called wr_graph id c) by (intros c; apply first_called_spec).
    destruct H as [H|H]; [injection H as <-; eexists; split; [apply Hid; vm_compute; reflexivity|]|].
    { right. eexists. split; [reflexivity|]. intros _ e He. change (edge_count wr_graph FWD) with 4 in He.
      do 4 (destruct e as [|e]; [eexists; reflexivity|]). exfalso. lia. }
    repeat (destruct H as [H|H]; [first [discriminate H|injection H as <-; eexists; split; [apply Hid; vm_compute; reflexivity|];
      first [left; eexists; reflexivity|right; eexists; split; [reflexivity|]; intros Hi; discriminate]]|]).
    destruct H. }
  split; [|vm_compute; reflexivity].
  intros (o & H & id & -> & [Hc|Hc]); apply first_called_spec in Hc;
    repeat (destruct H as [H|H]; [first [discriminate H|injection H as <-; vm_compute in Hc; discriminate]|]); destruct H.
Qed.

(** the destination's latitude of the edge from node 10 to node 30 is 3, but the
    source's latitude 1 is written *)
Theorem C37_rows_refuted :
  exists show hav c es ns g wc t s d,
    build hav c 2 3 es ns = Ok g /\ wc_ids wc = [Some "dst-lat"] /\
    exported_edges g (wc_shortcuts wc) [0; 1; 2; 3] /\
    (exists t0 t2 t3, write_edges show g wc =
       Ok (names_of_columns (wc_ids wc) ++ concat (map (fun cells => line (spaced cells)) [[t0]; [t]; [t2]; [t3]]))) /\
    edge_from_to g 1 s d /\ ~ fits_column show g (wc_denormalizing wc) 1 s d (Some "dst-lat") t.
Proof.
  exists show_num, ex_hav, wr_cfg, ex_es, wr_ns, wr_graph, (wr_wc true [Some "dst-lat"]), (T "1"), 0, 2.
  split; [exact wr_build|]. split; [reflexivity|]. split.
  { split; [repeat constructor|]. intros e. change (edge_count wr_graph FWD) with 4. cbn [In wr_wc wc_shortcuts]. split.
    - intros H. split; [|auto]. lia.
    - intros [H _]. lia. }
  split; [exists (T "1"), (T "2"), (T "3"); vm_compute; reflexivity|].
  split; [split; reflexivity|].
  intros H. inversion H as [|id info t Hc Ht|id u i x Hc Hi Hx]; subst; apply first_called_spec in Hc; vm_compute in Hc.
  - injection Hc as <-. inversion Ht as [| | | | | | |c Hn Heq| | | | |]; subst. vm_compute in Hn. injection Hn as <-.
    vm_compute in Heq. discriminate.
  - discriminate.
Qed.
Print Assumptions C37_rows_refuted.
