(** Model of the parsers of fmi- and route-pairs-files:
    src/io/parsing/network/graph/fmi.rs and src/io/parsing/routing/routes.rs *)
From Coq Require Import String Ascii List Bool Arith NArith ZArith.
From Verif Require Import Base F64 ModelText ModelUnits ModelConfig ModelGraph ModelBuild ModelParsing.
Import ListNotations.
Open Scope string_scope.
Open Scope list_scope.
Open Scope nat_scope.

(** models: src/io/parsing/network/graph/fmi.rs:40-69 and
    src/io/parsing/routing/routes.rs:30-59 (the same loop): looking for counts;
    the result is the number of lines up to the first data line, and the
    counts. *)
Fixpoint take_counts (taking : bool) (line_number : nat) (counts : list N) (ls : list text) : nat * list N :=
  match ls with
  | [] => (line_number, counts)
  | l :: ls =>
      match words l with
      | [w] => take_counts true (S line_number)
                 (match parse_usize w with Some n => counts ++ [n] | None => counts end) ls
      | _ => if taking then (line_number, counts) else take_counts taking (S line_number) counts ls
      end
  end.

(** models: `a + b` on usize (panics on overflow). *)
Definition add_usize (a b : N) : res N := if (a + b <=? U64_MAX)%N then Ok (a + b)%N else Panic.

(** models: src/io/parsing/network/graph/fmi.rs:18-21 (Parser): the half-open
    ranges of line numbers. *)
Record ranges : Set := mkRanges { node_lines : N * N; edge_lines : N * N }.

(** models: src/io/parsing/network/graph/fmi.rs:34-95 (preprocess, after
    check_config); the input are the file's functional lines. *)
Definition fmi_ranges (ls : list text) : res ranges :=
  let '(start, counts) := take_counts false 0 [] ls in
  match rev counts with
  | m :: n :: _ =>
      do mid <- add_usize (N.of_nat start) n;
      do stop <- add_usize mid m;
      Ok {| node_lines := (N.of_nat start, mid); edge_lines := (mid, stop) |}
  | _ => Err "map-file doesn't have enough (edge-, node-) counts"
  end.
Definition fmi_preprocess (dim : nat) (pc : parse_cfg) (file : text) : res ranges :=
  do _ <- check_config dim pc;
  fmi_ranges (functional_lines file).

(** models: `Range::contains`. *)
Definition in_range (r : N * N) (i : nat) : bool := (fst r <=? N.of_nat i)%N && (N.of_nat i <? snd r)%N.

(** models: the loops src/io/parsing/network/graph/fmi.rs:107-123, :138-154 and
    src/io/parsing/routing/routes.rs:92-136: lines outside of the range are
    skipped, the others parsed. *)
Fixpoint parse_lines {A} (f : text -> res A) (r : N * N) (line_number : nat) (ls : list text) : res (list A) :=
  match ls with
  | [] => Ok []
  | l :: ls =>
      if in_range r line_number then
        do x <- f l;
        do xs <- parse_lines f r (S line_number) ls;
        Ok (x :: xs)
      else parse_lines f r (S line_number) ls
  end.

(** models: src/defaults.rs:40 (parsing::NO_SHORTCUT_IDX). *)
Definition NO_SHORTCUT_IDX : text := T "-1".

(** models: `&param[0..2]`, which panics if the text is shorter or the second
    byte is not the end of a character. *)
Definition first_two (s : text) : res text :=
  match s with
  | a :: b :: t =>
      match t with
      | c :: _ => if (128 <=? nat_of_ascii c) && (nat_of_ascii c <=? 191) then Panic else Ok [a; b]
      | [] => Ok [a; b]
      end
  | _ => Panic
  end.

Section Values.
  (** models: str::parse::<f64> of the standard library *)
  Variable parse_f64 : text -> option f64.

  (** models: the variables of src/io/parsing/network/graph/fmi.rs:168-173. *)
  Record edge_acc : Type := mkEdgeAcc {
    ea_metrics : list f64;
    ea_id : option nat;
    ea_src : option Z;
    ea_dst : option Z;
    ea_sc0 : option nat;
    ea_sc1 : option nat;
  }.

  (** models: src/io/parsing/network/graph/fmi.rs:189-205 (EdgeId). *)
  Definition parse_edge_id (param : text) : res nat :=
    match parse_usize param with
    | Some n => Ok (N.to_nat n)
    | None =>
        do two <- first_two param;
        if text_eqb two (T "ch") then
          match parse_usize (skipn 2 param) with
          | Some n => Ok (N.to_nat n)
          | None => Err "parsing the edge-id didn't work"
          end
        else Err "parsing the edge-id didn't work"
    end.

  (** models: src/io/parsing/network/graph/fmi.rs:206-231 (SrcId, DstId). *)
  Definition parse_node_id (old : option Z) (param : text) : res Z :=
    match old with
    | Some _ => Err "id is already set"
    | None => match parse_i64 param with Some z => Ok z | None => Err "id is not i64" end
    end.

  (** models: src/io/parsing/network/graph/fmi.rs:232-269 (ShortcutIdx0 and
      ShortcutIdx1). *)
  Definition parse_sc_idx (old : option nat) (param : text) : res (option nat) :=
    if text_eqb param NO_SHORTCUT_IDX then Ok old
    else
      match parse_usize param with
      | None => Err "parsing the shortcut-index didn't work"
      | Some n => match old with None => Ok (Some (N.to_nat n)) | Some _ => Err "too many shortcut-indices" end
      end.

  (** models: src/io/parsing/network/graph/fmi.rs:187-292 (one category). *)
  Definition edge_param (a : edge_acc) (c : category) (param : text) : res edge_acc :=
    match c with
    | CMeta EdgeId _ =>
        do i <- parse_edge_id param;
        Ok (mkEdgeAcc (ea_metrics a) (Some i) (ea_src a) (ea_dst a) (ea_sc0 a) (ea_sc1 a))
    | CMeta SrcId _ =>
        do z <- parse_node_id (ea_src a) param;
        Ok (mkEdgeAcc (ea_metrics a) (ea_id a) (Some z) (ea_dst a) (ea_sc0 a) (ea_sc1 a))
    | CMeta DstId _ =>
        do z <- parse_node_id (ea_dst a) param;
        Ok (mkEdgeAcc (ea_metrics a) (ea_id a) (ea_src a) (Some z) (ea_sc0 a) (ea_sc1 a))
    | CMeta ShortcutIdx0 _ =>
        do i <- parse_sc_idx (ea_sc0 a) param;
        Ok (mkEdgeAcc (ea_metrics a) (ea_id a) (ea_src a) (ea_dst a) i (ea_sc1 a))
    | CMeta ShortcutIdx1 _ =>
        do i <- parse_sc_idx (ea_sc1 a) param;
        Ok (mkEdgeAcc (ea_metrics a) (ea_id a) (ea_src a) (ea_dst a) (ea_sc0 a) i)
    | CMeta _ _ => Err "unsupported category"
    | CMetric _ _ =>
        match parse_f64 param with
        | Some x => Ok (mkEdgeAcc (ea_metrics a ++ [x]) (ea_id a) (ea_src a) (ea_dst a) (ea_sc0 a) (ea_sc1 a))
        | None => Err "parsing the metric didn't work"
        end
    | CIgnored => Ok a
    end.

  (** models: src/io/parsing/network/graph/fmi.rs:179-185: categories and
      parameters side by side; superfluous parameters are ignored. *)
  Fixpoint edge_params (a : edge_acc) (cs : list category) (params : list text) : res edge_acc :=
    match cs with
    | [] => Ok a
    | c :: cs =>
        match params with
        | [] => Err "more edge-params expected"
        | p :: params => do a' <- edge_param a c p; edge_params a' cs params
        end
    end.

  (** models: src/io/parsing/network/graph/fmi.rs:160-309 (try_from_str). *)
  Definition edge_from_str (cs : list category) (l : text) : res proto_edge :=
    do a <- edge_params (mkEdgeAcc [] None None None None None) cs (words l);
    match ea_src a with
    | None => Err "proto-edge should have a src-id"
    | Some s =>
        match ea_dst a with
        | None => Err "proto-edge should have a dst-id"
        | Some d =>
            Ok {| pe_id := ea_id a; pe_src := s; pe_dst := d; pe_metrics := ea_metrics a;
                  pe_sc := match ea_sc0 a, ea_sc1 a with
                           | Some x, Some y => Some (x, y)
                           | _, _ => None
                           end |}
        end
    end.

  (** models: the variables of src/io/parsing/network/graph/fmi.rs:313-316. *)
  Record node_acc : Type := mkNodeAcc {
    na_id : option Z;
    na_lat : option f64;
    na_lon : option f64;
    na_level : option nat;
  }.

  (** models: src/io/parsing/network/graph/fmi.rs:327-381 (one category).
      [all] are all parameters: the messages about wrong coordinates print the
      third or fourth one, which panics if it does not exist (:357, :368). *)
  Definition node_param (all : list text) (a : node_acc) (c : node_cat) (param : text) : res node_acc :=
    match c with
    | NCMeta NNodeId _ =>
        match parse_i64 param with
        | Some z => Ok (mkNodeAcc (Some z) (na_lat a) (na_lon a) (na_level a))
        | None => Err "id is not i64"
        end
    | NCMeta NCHLevel _ =>
        match parse_usize param with
        | Some n => Ok (mkNodeAcc (na_id a) (na_lat a) (na_lon a) (Some (N.to_nat n)))
        | None => Err "ch-level is not usize"
        end
    | NCMeta NNodeIdx _ => Err "unsupported category"
    | NCMetric Latitude _ =>
        match parse_f64 param with
        | Some x => Ok (mkNodeAcc (na_id a) (Some x) (na_lon a) (na_level a))
        | None => do _ <- idx all 2; Err "lat is not f64"
        end
    | NCMetric Longitude _ =>
        match parse_f64 param with
        | Some x => Ok (mkNodeAcc (na_id a) (na_lat a) (Some x) (na_level a))
        | None => do _ <- idx all 3; Err "lon is not f64"
        end
    | NCMetric Height _ => Err "unsupported category"
    | NCIgnored => Ok a
    end.

  (** models: src/io/parsing/network/graph/fmi.rs:321-325. *)
  Fixpoint node_params (all : list text) (a : node_acc) (cs : list node_cat) (params : list text) : res node_acc :=
    match cs with
    | [] => Ok a
    | c :: cs =>
        match params with
        | [] => Err "more node-params expected"
        | p :: params => do a' <- node_param all a c p; node_params all a' cs params
        end
    end.

  (** models: src/io/parsing/network/graph/fmi.rs:311-395 (from_str). *)
  Definition node_from_str (cs : list node_cat) (l : text) : res proto_node :=
    do a <- node_params (words l) (mkNodeAcc None None None None) cs (words l);
    match na_id a with
    | None => Err "proto-node should have an id"
    | Some i =>
        match na_lat a with
        | None => Err "latitude is missing"
        | Some la =>
            match na_lon a with
            | None => Err "longitude is missing"
            | Some lo => Ok {| pn_id := i; pn_coord := mkCoord la lo; pn_level := na_level a |}
            end
        end
    end.

  (** models: src/io/parsing/network/graph/fmi.rs:97-126 (parse_ways) and
      :128-157 (parse_nodes): what is inserted, in order.  The code inserts each
      element right after parsing it; here, they are inserted by [build]. *)
  Definition fmi_edges (pc : parse_cfg) (r : ranges) (file : text) : res (list proto_edge) :=
    parse_lines (edge_from_str (ec_categories (cfg_edges (pc_cfg pc)))) (edge_lines r) 0 (functional_lines file).
  Definition fmi_nodes (pc : parse_cfg) (r : ranges) (file : text) : res (list proto_node) :=
    parse_lines (node_from_str (pc_nodes pc)) (node_lines r) 0 (functional_lines file).

  (** models: src/io/parsing/network/graph/mod.rs:75-90 (parse) for fmi-files:
      edges, then nodes. *)
  Definition fmi_parse (dim : nat) (pc : parse_cfg) (file : text) : res (list proto_edge * list proto_node) :=
    do r <- fmi_preprocess dim pc file;
    do es <- fmi_edges pc r file;
    do ns <- fmi_nodes pc r file;
    Ok (es, ns).

  (** models: src/io/parsing/network/graph/mod.rs:92-103 (parse_and_finalize) for
      fmi-files. *)
  Definition fmi_graph (hav : coord -> coord -> f64) (dim : nat) (pc : parse_cfg) (ch1 ch2 : nat) (file : text) : res graph :=
    do p <- fmi_parse dim pc file;
    build hav (pc_cfg pc) ch1 ch2 (fst p) (snd p).

  (** models: src/io/parsing/network/edges.rs:14-36 (new_reader) and
      src/network/graph/building.rs (the split of a row): the rows to be merged. *)
  Definition merge_rows (with_header : bool) (file : text) : list (list token) :=
    let ls := functional_lines file in
    map (fun l => map (fun w => {| tok_usize := option_map N.to_nat (parse_usize w); tok_f64 := parse_f64 w |}) (words l))
        (if with_header then skipn 1 ls else ls).
End Values.

(** *** Route pairs *)

(** models: src/io/parsing/routing/routes.rs:62-74 (the rest of preprocess). *)
Definition route_range (ls : list text) : res (N * N) :=
  let '(start, counts) := take_counts false 0 [] ls in
  match rev counts with
  | n :: _ => do stop <- add_usize (N.of_nat start) n; Ok (N.of_nat start, stop)
  | [] => Err "routes-file doesn't have the routes-count"
  end.

(** models: src/io/parsing/routing/routes.rs:104-135 (one line). *)
Definition route_from_str (l : text) : res (Z * Z * nat) :=
  match words l with
  | [a; b; c] =>
      match parse_i64 a with
      | None => Err "could not parse route's src-id"
      | Some s =>
          match parse_i64 b with
          | None => Err "could not parse route's dst-id"
          | Some d =>
              match parse_usize c with
              | None => Err "could not parse route's count"
              | Some n => Ok (s, d, N.to_nat n)
              end
          end
      end
  | _ => Err "a route-line is expected to consist of (src-id, dst-id, count)"
  end.

(** models: `Vec::with_capacity`, which panics if more than isize::MAX bytes
    are asked for (running out of memory is not modelled). *)
Definition with_capacity (count size : N) : res unit := if (count * size <=? I64_MAX)%N then Ok tt else Panic.

(** models: src/io/parsing/routing/routes.rs:22-140 (preprocess,
    parse_route_pairs), src/io/parsing/routing/mod.rs:48-58 (parse); a pair with
    its count takes 24 bytes.  Opening the file is not modelled. *)
Definition parse_routes (file : text) : res (list (Z * Z * nat)) :=
  do r <- route_range (functional_lines file);
  do _ <- with_capacity (snd r - fst r) 24;
  parse_lines route_from_str r 0 (functional_lines file).
