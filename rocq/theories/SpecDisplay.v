(** What a displayed graph should say. *)
From Coq Require Import List Arith ZArith Sorted.
From Verif Require Import Base F64 ModelConfig ModelGraph ModelDisplay.
Import ListNotations.
Open Scope list_scope.
Open Scope nat_scope.

(** at most 20 items are shown; if there are more, the first 19, a mark for
    what is missing, and the last one *)
Definition shown {L} (more : L) (items shown : list L) : Prop :=
  (length items <= 20 /\ shown = items) \/
  (exists first rest x, items = first ++ rest ++ [x] /\ length first = 19 /\ rest <> [] /\ shown = first ++ [more; x]).

(** one line for each of the numbers below [n], in their order *)
Definition enumerates (P : nat -> dline -> Prop) (n : nat) (ls : list dline) : Prop :=
  length ls = n /\ forall i l, nth_error ls i = Some l -> P i l.

(** the line of a node *)
Definition node_line (g : graph) (i : nat) (l : dline) : Prop :=
  exists id c, nth_error (node_ids g) i = Some id /\ nth_error (node_coords g) i = Some c /\ l = DNode i id c.

(** the shortcuts among the edges, ascending *)
Definition shortcut_edges (g : graph) (es : list nat) : Prop :=
  StronglySorted lt es /\ forall e, In e es <-> exists p, sc_edges g e = Ok (Some p).

(** the line of an edge, seen in direction [d]: its ends, metrics and id, and
    how many shortcuts have a smaller index *)
Definition edge_line (g : graph) (scs : list nat) (d : dir) (j : nat) (l : dline) : Prop :=
  exists id src ms dst, edge_try_id g j = Ok id /\ dst_idx g (opp d) j = Ok src /\ dst_idx g d j = Ok dst /\
    nth_error (metrics g) j = Some ms /\
    l = DEdge d id j (length (filter (fun e => e <? j) scs)) src ms dst.

(** how many edges start (in direction [d]) at a node before [i] *)
Definition starting_before (g : graph) (d : dir) (i : nat) : nat :=
  length (filter (fun v => v <? i) (xwd_dsts g (opp d))).

Definition offset_line (g : graph) (d : dir) (i : nat) (l : dline) : Prop := l = DOffset d i (starting_before g d i).

(** the line after the offsets: as many offsets as there are nodes up to the
    last one with an edge, and all the edges *)
Definition last_offset (g : graph) (d : dir) (l : dline) : Prop :=
  exists v, (forall e w, dst_idx g (opp d) e = Ok w -> w <= v) /\
    (edge_count g d = 0 /\ v = 0 \/ exists e, dst_idx g (opp d) e = Ok v) /\
    l = DLastOffset d (v + 1) (edge_count g d).

(** the line of the [k]-th shortcut: the edge, and the two it replaces *)
Definition shortcut_line (g : graph) (scs : list nat) (k : nat) (l : dline) : Prop :=
  exists e p, nth_error scs k = Some e /\ sc_edges g e = Ok (Some p) /\ l = DShortcut e k p.

(** the part for one direction *)
Definition dir_part (g : graph) (scs : list nat) (d : dir) (ls : list dline) : Prop :=
  exists es es' os os' lo,
    enumerates (edge_line g scs d) (edge_count g FWD) es /\ shown (DMoreEdges d) es es' /\
    enumerates (offset_line g d) (node_count g) os /\ shown (DMoreOffsets d) os os' /\
    last_offset g d lo /\ ls = es' ++ [DEmpty] ++ os' ++ [lo; DEmpty].

Definition shortcuts_part (g : graph) (scs : list nat) (ls : list dline) : Prop :=
  match scs with
  | [] => ls = [DNoShortcuts]
  | _ => exists sc, enumerates (shortcut_line g scs) (length scs) sc /\ shown DMoreShortcuts sc ls
  end.

(** the whole text *)
Definition displays (g : graph) (ls : list dline) : Prop :=
  exists scs ns ns' f b sc,
    shortcut_edges g scs /\
    enumerates (node_line g) (node_count g) ns /\ shown DMoreNodes ns ns' /\
    dir_part g scs FWD f /\ dir_part g scs BWD b /\ shortcuts_part g scs sc /\
    ls = [DCounts (node_count g) (edge_count g FWD); DEmpty; DConfig (g_cfg g); DEmpty]
         ++ ns' ++ [DEmpty] ++ f ++ b ++ sc.

(** one of the last two nodes has an edge in direction [d] *)
Definition one_of_last_two (g : graph) (d : dir) : Prop :=
  node_count g <= 1 \/ exists e v, dst_idx g (opp d) e = Ok v /\ node_count g <= v + 2.
