(** Vocabulary of the properties of exported edges and graphs *)
From Coq Require Import String Ascii List Bool Arith ZArith Sorting.Sorted.
From Verif Require Import Base F64 ModelText ModelUnits ModelConfig ModelGraph ModelBuild Spec SpecGenerate.
Import ListNotations.
Open Scope string_scope.
Open Scope list_scope.
Open Scope nat_scope.

(** [c] is the first category of the graph's edges called [id] *)
Definition called (g : graph) (id : string) (c : category) : Prop :=
  exists before after, cats_of g = before ++ c :: after /\ category_id c = Some id /\
    forall c', In c' before -> category_id c' <> Some id.

(** [x] is the metric of edge [e] at position [i], multiplied by the metric's
    mean if this is asked for and the graph is normalized *)
Definition exported_metric (g : graph) (denorm : bool) (e i : nat) (x : f64) : Prop :=
  exists y, metric_of g e i = Some y /\
    match denorm, means g with
    | true, Some ms => exists m, nth_error ms i = Some m /\ x = fmul y m
    | _, _ => x = y
    end.

Section Values.
  Variable show_f64 : f64 -> text.

  (** [t] tells the information [info] about the edge [e] from [s] to [d] *)
  Inductive tells (g : graph) (e s d : nat) : edge_meta -> text -> Prop :=
  | tells_edge_id i : edge_try_id g e = Ok (Some i) -> tells g e s d EdgeId (show_nat i)
  | tells_src_id i : node_id g s = Ok i -> tells g e s d SrcId (show_Z i)
  | tells_src_idx : tells g e s d SrcIdx (show_nat s)
  | tells_src_lat c : node_coord g s = Ok c -> tells g e s d SrcLat (show_f64 (lat c))
  | tells_src_lon c : node_coord g s = Ok c -> tells g e s d SrcLon (show_f64 (lon c))
  | tells_dst_id i : node_id g d = Ok i -> tells g e s d DstId (show_Z i)
  | tells_dst_idx : tells g e s d DstIdx (show_nat d)
  | tells_dst_lat c : node_coord g d = Ok c -> tells g e s d DstLat (show_f64 (lat c))
  | tells_dst_lon c : node_coord g d = Ok c -> tells g e s d DstLon (show_f64 (lon c))
  | tells_sc0 x y : sc_edges g e = Ok (Some (x, y)) -> tells g e s d ShortcutIdx0 (show_nat x)
  | tells_sc1 x y : sc_edges g e = Ok (Some (x, y)) -> tells g e s d ShortcutIdx1 (show_nat y)
  | tells_no_sc0 : sc_edges g e = Ok None -> tells g e s d ShortcutIdx0 (T "-1")
  | tells_no_sc1 : sc_edges g e = Ok None -> tells g e s d ShortcutIdx1 (T "-1").

  (** [t] is what belongs into the column [o] of the edge [e] from [s] to [d] *)
  Inductive fits_column (g : graph) (denorm : bool) (e s d : nat) : option string -> text -> Prop :=
  | fits_ignored : fits_column g denorm e s d None (T "_")
  | fits_meta id info t : called g id (CMeta info id) -> tells g e s d info t ->
      fits_column g denorm e s d (Some id) t
  | fits_metric id u i x : called g id (CMetric u id) -> first_at (ids_of g) id i ->
      exported_metric g denorm e i x -> fits_column g denorm e s d (Some id) (show_f64 x).
End Values.

(** the column asks for a coordinate of the destination *)
Definition dst_coord_column (g : graph) (o : option string) : Prop :=
  exists id, o = Some id /\ (called g id (CMeta DstLat id) \/ called g id (CMeta DstLon id)).

(** the edges to be exported, in ascending order *)
Definition exported_edges (g : graph) (shortcuts : bool) (es : list nat) : Prop :=
  StronglySorted lt es /\
  forall e, In e es <-> e < edge_count g FWD /\ (shortcuts = true \/ sc_edges g e = Ok None).

(** the positions of the columns that contain metrics, in ascending order *)
Definition columns_of_metrics (g : graph) (columns : list (option string)) (ks : list nat) : Prop :=
  StronglySorted lt ks /\
  forall k, In k ks <-> exists id, nth_error columns k = Some (Some id) /\ In id (ids_of g).

(** means exist for all metrics, if for any *)
Definition means_described (g : graph) : Prop :=
  forall ms, means g = Some ms -> length ms = length (ids_of g).
