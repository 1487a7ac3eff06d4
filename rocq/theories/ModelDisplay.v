(** Model of src/network/graph/mod.rs:162-331 (impl Display for Graph), the
    text which `debug!("{}", graph)` asks for in
    src/bin/osmgraphing/mod.rs:84 and
    src/bin/osmgraphing/balancing/mod.rs:430.

    A line of text is kept as the data it is made of; how numbers, metrics and
    the config are spelled is not modelled. *)
From Coq Require Import String List Bool Arith ZArith.
From Verif Require Import Base F64 ModelConfig ModelGraph.
Import ListNotations.
Open Scope list_scope.
Open Scope nat_scope.

(** models: the `writeln!`s of src/network/graph/mod.rs:164-325, one
    constructor for each format string. *)
Inductive dline : Type :=
| DEmpty
| DCounts (nodes edges : nat)
| DConfig (c : cfg)
| DMoreNodes
| DNode (i : nat) (id : Z) (c : coord)
| DMoreEdges (d : dir)
| DEdge (d : dir) (id : option nat) (j sc src : nat) (ms : list f64) (dst : nat)
| DMoreOffsets (d : dir)
| DOffset (d : dir) (i o : nat)
| DLastOffset (d : dir) (i o : nat)
| DNoShortcuts
| DMoreShortcuts
| DShortcut (e sc : nat) (replaced : nat * nat).

(** models: the loop `for mut i in 0..n { if i < count { if i == n - 1 { ... }
    ... } else { break; } }` shared by src/network/graph/mod.rs:182-204 (nodes),
    :226-257 (edges), :262-282 (offsets) and :299-326 (shortcuts).  [entry] writes
    the line of an item; [s] is what the loop carries along (`edge_idx` at :298,
    nothing in the other loops). *)
Fixpoint up_to {S L} (n count : nat) (more : L) (entry : S -> nat -> res (S * L)) (steps i : nat) (s : S)
  : res (list L) :=
  match steps with
  | 0 => Ok []
  | Datatypes.S steps' =>
    if i <? count then
      let j := if i =? n - 1 then count - 1 else i in
      do (s', l) <- entry s j;
      do rest <- up_to n count more entry steps' (i + 1) s';
      Ok ((if (i =? n - 1) && (i + 1 <? count) then [more] else []) ++ l :: rest)
    else Ok []
  end.

(** models: `let n = 20; let m = 20;`, src/network/graph/mod.rs:178-179. *)
Definition lines_max : nat := 20.

(** models: the loops above started at 0. *)
Definition listing {S L} (count : nat) (more : L) (entry : S -> nat -> res (S * L)) (s : S) : res (list L) :=
  up_to lines_max count more entry lines_max 0 s.

(** models: src/network/graph/mod.rs:193-200. *)
Definition node_entry (g : graph) (_ : unit) (i : nat) : res (unit * dline) :=
  do n <- node_create g i;
  Ok (tt, DNode i (n_id n) (n_coord n)).

(** models: src/network/graph/mod.rs:237-253; metrics() and dst_idx() of the
    half-edge are src/network/graph/mod.rs:390-404. *)
Definition edge_entry (g : graph) (d : dir) (_ : unit) (j : nat) : res (unit * dline) :=
  do src <- dst_idx g (opp d) j;
  do ms <- idx (metrics g) j;
  do id <- edge_try_id g j;
  do sc <- idx (sc_offsets g) j;
  do dst <- dst_idx g d j;
  Ok (tt, DEdge d id j sc src ms dst).

(** models: src/network/graph/mod.rs:273-277. *)
Definition offset_entry (g : graph) (d : dir) (_ : unit) (i : nat) : res (unit * dline) :=
  do o <- idx (xwd_offsets g d) i;
  Ok (tt, DOffset d i o).

(** models: src/network/graph/mod.rs:311-313 (`while self.sc_offsets[edge_idx]
    <= j { edge_idx += 1; }`); the fuel is the length of the array, so that it
    lasts longer than the indices do. *)
Fixpoint skip_to (fuel : nat) (offs : list nat) (e j : nat) : res nat :=
  match fuel with
  | 0 => Diverge
  | S fuel' =>
    do o <- idx offs e;
    if o <=? j then skip_to fuel' offs (e + 1) j else Ok e
  end.

(** models: src/network/graph/mod.rs:311-322; `edge_idx -= 1` underflows at 0. *)
Definition shortcut_entry (g : graph) (e j : nat) : res (nat * dline) :=
  do past <- skip_to (length (sc_offsets g) + 1) (sc_offsets g) e j;
  match past with
  | 0 => Panic
  | S e' =>
    do o <- idx (sc_offsets g) e';
    do p <- idx (sc_edges_arr g) o;
    Ok (e', DShortcut e' o p)
  end.

(** models: src/network/graph/mod.rs:222-291, one round of the loop over
    `graph_stuff`; `xwd_offsets.len() - 1` underflows if there is none. *)
Definition display_dir (g : graph) (d : dir) : res (list dline) :=
  do es <- listing (edge_count g d) (DMoreEdges d) (edge_entry g d) tt;
  do os <- listing (node_count g) (DMoreOffsets d) (offset_entry g d) tt;
  match length (xwd_offsets g d) with
  | 0 => Panic
  | S i =>
    do o <- idx (xwd_offsets g d) i;
    Ok (es ++ [DEmpty] ++ os ++ [DLastOffset d i o; DEmpty])
  end.

(** models: src/network/graph/mod.rs:294-327. *)
Definition display_shortcuts (g : graph) : res (list dline) :=
  if length (sc_edges_arr g) =? 0 then Ok [DNoShortcuts]
  else listing (length (sc_edges_arr g)) DMoreShortcuts (shortcut_entry g) 0.

(** models: src/network/graph/mod.rs:163-330 (fmt); writing to the formatter
    does not fail. *)
Definition display (g : graph) : res (list dline) :=
  do ns <- listing (node_count g) DMoreNodes (node_entry g) tt;
  do f <- display_dir g FWD;
  do b <- display_dir g BWD;
  do sc <- display_shortcuts g;
  Ok ([DCounts (node_count g) (edge_count g FWD); DEmpty; DConfig (g_cfg g); DEmpty]
      ++ ns ++ [DEmpty] ++ f ++ b ++ sc).

(** models: src/bin/osmgraphing/balancing/mod.rs:419-433 (parse_graph), and
    src/bin/osmgraphing/mod.rs:72-88; [debug] says whether lines of that level
    are logged (`--log debug` or RUST_LOG); `debug!` evaluates its arguments
    only then. *)
Definition parse_logged (debug : bool) (parsed : res graph) : res graph :=
  do g <- parsed;
  if debug then do _ <- display g; Ok g else Ok g.
