(** Vocabulary of routing on OpenStreetMap data: where one may drive, how far it
    is and how long it takes.  What tags mean (the street's type, its direction,
    its speed limit) is specified by C32 and C33. *)
From Coq Require Import String List Bool Arith NArith ZArith QArith.
From Verif Require Import Base F64 ModelText ModelStreets ModelUnits ModelConfig ModelGraph ModelBuild ModelParsing.
Import ListNotations.
Open Scope string_scope.
Open Scope list_scope.
Open Scope nat_scope.

(** The vehicles may drive from node [a] directly to node [b] along a way through
    [nodes] which is a street of type [c]: in the nodes' order unless the way is
    a oneway against it, against the order unless the way is a oneway with it. *)
Definition passable (vc : vehicle_cfg) (nodes : list Z) (ts : tags) (c : street) (a b : Z) : Prop :=
  street_from ts = Some c /\ is_for c (vc_category vc) (vc_picky vc) = true /\
  exists l r, (nodes = l ++ a :: b :: r /\ snd (parse_oneway c ts) = false) \/
              (nodes = l ++ b :: a :: r /\ (fst (parse_oneway c ts) = true -> snd (parse_oneway c ts) = true)).

(** the same on some way, whose speed limit is [v] km/h and which has [n] lanes *)
Definition leg (vc : vehicle_cfg) (objs : list osm_obj) (a b : Z) (v : N) (n : nat) : Prop :=
  exists nodes ts c, In (OsmWay nodes ts) objs /\ passable vc nodes ts c a b /\
    v = parse_maxspeed c ts /\ n = parse_lane_count c ts.

(** the node is at [x], according to its last mention; coordinates are given in
    units of 1e-7 degrees *)
Definition located (objs : list osm_obj) (id : Z) (x : coord) : Prop :=
  exists pre la lo post, objs = pre ++ OsmNode id la lo :: post /\
    (forall la' lo', ~ In (OsmNode id la' lo') post) /\
    x = mkCoord (Fin (la # 10000000)) (Fin (lo # 10000000)).

(** a drive from [a] to [b] over the nodes listed, leg by leg, with its length in
    kilometers and its duration in hours at the speed limits *)
Inductive ride (hav : coord -> coord -> f64) (vc : vehicle_cfg) (objs : list osm_obj) : Z -> list Z -> Z -> Q -> Q -> Prop :=
| ride_nil a : ride hav vc objs a [] a 0 0
| ride_cons a b v n xa xb km l c d t :
    leg vc objs a b v n -> located objs a xa -> located objs b xb -> hav xa xb = Fin km ->
    ride hav vc objs b l c d t ->
    ride hav vc objs a (b :: l) c (km + d)%Q (km / inject_Z (Z.of_N v) + t)%Q.

(** the nodes edges lead to, one after the other *)
Definition over (g : graph) (es : list nat) (l : list Z) : Prop :=
  Forall2 (fun e b => exists d, dst_idx g FWD e = Ok d /\ node_id g d = Ok b) es l.

(** distances are finite and not negative *)
Definition proper_distance (hav : coord -> coord -> f64) : Prop :=
  forall x y, exists q, hav x y = Fin q /\ (0 <= q)%Q.

(** The configuration of resources/isle_of_man_2020-03-14/osm.pbf.yaml:1-25, for
    any vehicles.  The ones of the other maps have the same metrics. *)
Definition osm_cfg (vc : vehicle_cfg) : parse_cfg :=
  {| pc_vehicles := vc;
     pc_nodes := [NCMeta NNodeId "node-id"; NCMetric Latitude "latitude"; NCMetric Longitude "longitude"];
     pc_cfg := {| cfg_edges := {| ec_categories := [CMeta SrcId "src-id"; CMeta DstId "dst-id"; CIgnored;
                                                    CMetric KilometersPerHour "kmph"; CMetric LaneCount "lanecount"];
                                  ec_normalized := false; ec_units := [KilometersPerHour; LaneCount]; ec_ids := ["kmph"; "lanecount"] |};
                  cfg_nodes := [NMeta NNodeId "node-id"; NMetric "latitude"; NMetric "longitude"];
                  cfg_gen_nodes := [(NNodeIdx, "node-idx")];
                  cfg_gen_edges := [GMeta GSrcIdx "src-idx"; GMeta GDstIdx "dst-idx"; GHaversine Kilometers "kilometers";
                                    GCalc Hours "hours" Kilometers "kilometers" KilometersPerHour "kmph"] |} |}.
