(** Model of src/io/writing/smarts.rs: exporting paths for SMARTS *)
From Coq Require Import String Ascii List Bool Arith NArith ZArith.
From Verif Require Import Base F64 ModelText ModelConfig ModelGraph ModelDijkstra.
Import ListNotations.
Open Scope string_scope.
Open Scope list_scope.
Open Scope nat_scope.

(** models: src/defaults.rs:69-72 (smarts::route_file_format). *)
Definition SMARTS_VERSION : text := T "1.0".
Definition SMARTS_VEHICLE_TYPE : text := T "CAR".
Definition SMARTS_START_TIME : text := T "0.4".
Definition SMARTS_DRIVER_PROFILE : text := T "NORMAL".

(** models: src/io/writing/smarts.rs:33-38. *)
Definition smarts_header : list text :=
  [T "<?xml version=""" ++ SMARTS_VERSION ++ T """ encoding=""UTF-8""?>"; T "<data>"].

(** models: src/io/writing/smarts.rs:41-51. *)
Definition smarts_vehicle (src_id dst_id : Z) : text :=
  T "<vehicle id=""" ++ show_Z src_id ++ T "->" ++ show_Z dst_id ++
  T """ type=""" ++ SMARTS_VEHICLE_TYPE ++ T """ start_time=""" ++ SMARTS_START_TIME ++
  T """ driverProfile=""" ++ SMARTS_DRIVER_PROFILE ++ T """>".

(** models: src/io/writing/smarts.rs:58 and :63. *)
Definition smarts_node (id : Z) : text := T "<node id=""" ++ show_Z id ++ T """/>".

(** models: src/io/writing/smarts.rs:53-64. *)
Fixpoint smarts_nodes (g : graph) (is_first : bool) (es : list nat) : res (list text) :=
  match es with
  | [] => Ok []
  | e :: es =>
      do first <- (if is_first then
                     do s <- dst_idx g BWD e;
                     do src_id <- node_id g s;
                     Ok [smarts_node src_id]
                   else Ok []);
      do d <- dst_idx g FWD e;
      do dst_id <- node_id g d;
      do rest <- smarts_nodes g false es;
      Ok (first ++ smarts_node dst_id :: rest)
  end.

(** models: src/io/writing/smarts.rs:40-67 (one path). *)
Definition smarts_path (g : graph) (p : path) : res (list text) :=
  do src_id <- node_id g (p_src_idx p);
  do dst_id <- node_id g (p_dst_idx p);
  do ns <- smarts_nodes g true (p_edges p);
  Ok (smarts_vehicle src_id dst_id :: ns ++ [T "</vehicle>"]).

(** models: src/io/writing/smarts.rs:14-72 (write) after opening the file: the
    written text.  After a panic, a part of the text may remain in the file,
    which is not modelled. *)
Definition write_smarts (g : graph) (paths : list path) : res text :=
  do vs <- mapM (smarts_path g) paths;
  Ok (concat (map line (smarts_header ++ concat vs ++ [T "</data>"]))).
