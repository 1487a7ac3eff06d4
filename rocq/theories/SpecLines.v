(** Vocabulary for configurations and the lines of fmi-files *)
From Coq Require Import String Ascii List Bool Arith NArith ZArith.
From Verif Require Import Base F64 ModelText ModelStreets ModelUnits ModelConfig ModelGraph ModelBuild ModelParsing ModelFmi SpecGenerate.
Import ListNotations.
Open Scope string_scope.
Open Scope list_scope.
Open Scope nat_scope.

(** *** Configurations *)

(** does the generating category add a metric? *)
Definition adds_one (gc : gen_cat) : Prop :=
  match gc with
  | GCalc _ _ _ _ _ _ | GCopy _ _ _ _ | GHaversine _ _ | GCustom _ _ _ => True
  | GMeta _ _ | GConvert _ _ _ _ | GMerge _ _ _ => False
  end.
(** [n] of the elements of a list satisfy [P] *)
Inductive counted {A} (P : A -> Prop) : list A -> nat -> Prop :=
| counted_nil : counted P [] 0
| counted_yes x l n : P x -> counted P l n -> counted P (x :: l) (S n)
| counted_no x l n : ~ P x -> counted P l n -> counted P (x :: l) n.
Definition shortcut_column (c : category) : Prop := exists id, c = CMeta ShortcutIdx0 id \/ c = CMeta ShortcutIdx1 id.

(** nodes have an id and coordinates, there is room for all metrics, and
    shortcuts have none or two columns *)
Record acceptable (dim : nat) (pc : parse_cfg) : Prop := {
  ac_id : exists id, In (NCMeta NNodeId id) (pc_nodes pc);
  ac_lat : exists id, In (NCMetric Latitude id) (pc_nodes pc);
  ac_lon : exists id, In (NCMetric Longitude id) (pc_nodes pc);
  ac_room : exists n, counted adds_one (cfg_gen_edges (pc_cfg pc)) n /\ length (ec_units (cfg_edges (pc_cfg pc))) + n <= dim;
  ac_shortcuts : counted shortcut_column (ec_categories (cfg_edges (pc_cfg pc))) 0 \/
                 counted shortcut_column (ec_categories (cfg_edges (pc_cfg pc))) 2;
}.
(** what ways provide: ends, speed and lanes *)
Definition way_provides (c : category) : Prop :=
  match c with
  | CMeta SrcId _ | CMeta DstId _ | CMetric KilometersPerHour _ | CMetric LaneCount _ | CIgnored => True
  | _ => False
  end.

(** *** Columns *)

(** the words in the columns of some kind, from left to right *)
Inductive column_words {A} (P : A -> Prop) : list A -> list text -> list text -> Prop :=
| cw_end ws : column_words P [] ws []
| cw_yes c cs w ws l : P c -> column_words P cs ws l -> column_words P (c :: cs) (w :: ws) (w :: l)
| cw_no c cs w ws l : ~ P c -> column_words P cs ws l -> column_words P (c :: cs) (w :: ws) l.

(** the columns' last word *)
Definition last_word (l : list text) (w : text) : Prop := exists l', l = l' ++ [w].

(** an edge's id: a number, perhaps after "ch" *)
Definition means_edge_id (w : text) (n : nat) : Prop :=
  exists k, N.to_nat k = n /\
    (parse_usize w = Some k \/ exists d, w = T "ch" ++ d /\ parse_usize d = Some k).

(** the columns are all "-1" but perhaps one, which is the number [n] *)
Definition means_shortcut (l : list text) (o : option nat) : Prop :=
  match o with
  | None => Forall (fun w => w = T "-1") l
  | Some n => exists a w b k, l = a ++ w :: b /\ w <> T "-1" /\ parse_usize w = Some k /\ N.to_nat k = n /\
                Forall (fun w => w = T "-1") a /\ Forall (fun w => w = T "-1") b
  end.

Definition named_meta (i : edge_meta) (c : category) : Prop := exists id, c = CMeta i id.
Definition metric_column (c : category) : Prop := exists u id, c = CMetric u id.
Definition readable (c : category) : Prop :=
  match c with
  | CMeta EdgeId _ | CMeta SrcId _ | CMeta DstId _ | CMeta ShortcutIdx0 _ | CMeta ShortcutIdx1 _ | CMetric _ _ | CIgnored => True
  | _ => False
  end.

(** what the words [ws] say about an edge, given the columns' categories *)
Record edge_line (parse_f64 : text -> option f64) (cs : list category) (ws : list text) (e : proto_edge) : Prop := {
  el_readable : Forall readable cs;
  el_src : exists w, column_words (named_meta SrcId) cs ws [w] /\ parse_i64 w = Some (pe_src e);
  el_dst : exists w, column_words (named_meta DstId) cs ws [w] /\ parse_i64 w = Some (pe_dst e);
  el_metrics : exists l, column_words metric_column cs ws l /\ Forall2 (fun w x => parse_f64 w = Some x) l (pe_metrics e);
  el_id : exists l, column_words (named_meta EdgeId) cs ws l /\ Forall (fun w => exists n, means_edge_id w n) l /\
            match pe_id e with None => l = [] | Some n => exists w, last_word l w /\ means_edge_id w n end;
  el_sc : exists l0 l1 o0 o1, column_words (named_meta ShortcutIdx0) cs ws l0 /\ column_words (named_meta ShortcutIdx1) cs ws l1 /\
            means_shortcut l0 o0 /\ means_shortcut l1 o1 /\
            pe_sc e = match o0, o1 with Some x, Some y => Some (x, y) | _, _ => None end;
}.

Definition node_column (c0 c : node_cat) : Prop :=
  match c0, c with
  | NCMeta i _, NCMeta j _ => i = j
  | NCMetric u _, NCMetric v _ => u = v
  | _, _ => False
  end.
Definition node_readable (c : node_cat) : Prop :=
  match c with
  | NCMeta NNodeId _ | NCMeta NCHLevel _ | NCMetric Latitude _ | NCMetric Longitude _ | NCIgnored => True
  | _ => False
  end.
(** all words of the columns mean something, the last one [x] *)
Definition last_meaning {A} (mean : text -> option A) (l : list text) (x : A) : Prop :=
  Forall (fun w => exists y, mean w = Some y) l /\ exists w, last_word l w /\ mean w = Some x.

(** what the words [ws] say about a node *)
Record node_line (parse_f64 : text -> option f64) (cs : list node_cat) (ws : list text) (n : proto_node) : Prop := {
  nl_readable : Forall node_readable cs;
  nl_id : exists l, column_words (node_column (NCMeta NNodeId "")) cs ws l /\ last_meaning parse_i64 l (pn_id n);
  nl_lat : exists l, column_words (node_column (NCMetric Latitude "")) cs ws l /\ last_meaning parse_f64 l (lat (pn_coord n));
  nl_lon : exists l, column_words (node_column (NCMetric Longitude "")) cs ws l /\ last_meaning parse_f64 l (lon (pn_coord n));
  nl_level : exists l, column_words (node_column (NCMeta NCHLevel "")) cs ws l /\
               match pn_level n with
               | None => l = []
               | Some k => last_meaning (fun w => option_map N.to_nat (parse_usize w)) l k
               end;
}.
