(** Specification of streets and ways, independent of the tables in the code *)
From Coq Require Import String Ascii List Bool Arith NArith ZArith.
From Verif Require Import Base F64 ModelText ModelStreets ModelBuild.
Import ListNotations.
Open Scope string_scope.
Open Scope list_scope.
Open Scope nat_scope.

(** *** The documented table, src/network/mod.rs:23-44 *)

(** "yes", "yes(*)" (allowed or possible but uncomfortable or unusual), "no" *)
Inductive allowance : Set := Yes | Unusual | No.

(** default speed limit in km/h, for vehicles, for bicycles, for pedestrians *)
Definition documented (c : street) : nat * allowance * allowance * allowance :=
  match c with
  | Motorway => (130, Yes, No, No)
  | MotorwayLink => (50, Yes, No, No)
  | Trunk => (100, Yes, No, No)
  | TrunkLink => (50, Yes, No, No)
  | Primary => (100, Yes, Unusual, No)
  | PrimaryLink => (30, Yes, Unusual, No)
  | Secondary => (70, Yes, Unusual, No)
  | SecondaryLink => (30, Yes, Unusual, No)
  | Tertiary => (70, Yes, Yes, No)
  | TertiaryLink => (30, Yes, Yes, No)
  | Unclassified => (50, Yes, Yes, No)
  | Residential => (50, Yes, Yes, Yes)
  | LivingStreet => (15, Yes, Yes, Yes)
  | Service => (20, Unusual, Yes, Yes)
  | Track => (30, Unusual, Unusual, Yes)
  | Road => (50, Unusual, Unusual, Unusual)
  | Cycleway => (25, No, Yes, No)
  | Pedestrian => (5, No, Unusual, Yes)
  | Path => (15, No, Unusual, Yes)
  end.
Definition documented_speed (c : street) : nat := fst (fst (fst (documented c))).
Definition documented_for (c : street) (v : vehicle) : allowance :=
  match v with
  | Car => snd (fst (fst (documented c)))
  | Bicycle => snd (fst (documented c))
  | Walker => snd (documented c)
  end.

(** picky drivers avoid what is unusual *)
Definition admits (a : allowance) (picky : bool) : bool :=
  match a with Yes => true | Unusual => negb picky | No => false end.

(** *** Tags *)

(** texts that differ in letter case and surrounding white space only *)
Definition blank (c : ascii) : Prop := nat_of_ascii c = 32 \/ 9 <= nat_of_ascii c <= 13.
Definition upper_or_lower (c d : ascii) : Prop :=
  c = d \/ (97 <= nat_of_ascii d <= 122 /\ nat_of_ascii c + 32 = nat_of_ascii d).
Definition variant_of (v s : text) : Prop :=
  exists pre mid post, v = pre ++ mid ++ post /\ Forall blank pre /\ Forall blank post /\ Forall2 upper_or_lower mid s.

(** the value of OpenStreetMap's key "highway" a street type is named after
    (https://wiki.openstreetmap.org/wiki/Key:highway, referred to in
    src/network/mod.rs:15) *)
Definition highway_value (c : street) : string :=
  match c with
  | Motorway => "motorway" | MotorwayLink => "motorway_link"
  | Trunk => "trunk" | TrunkLink => "trunk_link"
  | Primary => "primary" | PrimaryLink => "primary_link"
  | Secondary => "secondary" | SecondaryLink => "secondary_link"
  | Tertiary => "tertiary" | TertiaryLink => "tertiary_link"
  | Unclassified => "unclassified" | Residential => "residential" | LivingStreet => "living_street"
  | Service => "service" | Track => "track" | Road => "road"
  | Cycleway => "cycleway" | Pedestrian => "pedestrian" | Path => "path"
  end.
(** further values of that key for ways on foot *)
Definition foot_values : list string := ["footway"; "steps"; "corridor"].
(** values of that key for what is not there, not yet or not any more, and for
    what is no street *)
Definition no_streets : list string :=
  ["construction"; "proposed"; "abandoned"; "disused"; "demolished"; "razed"; "planned"; "removed"; "no"; "none";
   "bus_stop"; "platform"; "rest_area"; "services"; "street_lamp"; "traffic_signals"; "stop"; "raceway"; "via_ferrata"].

(** the values meaning a oneway street, and one against the nodes' order *)
Definition oneway_values : list string :=
  ["1"; "left;through"; "motor_vehicle"; "recommended"; "shelter"; "use_sidepath"; "yes + oneway:bicycle=no"; "yes"].
Definition reverse_values : list string := ["-1"; "-1;no"].

(** *** Edges *)

(** the edge joins the given nodes *)
Definition joins (o : option proto_edge) (a b : Z) : Prop :=
  exists e, o = Some e /\ pe_src e = a /\ pe_dst e = b.

(** the [i]-th node in driving direction *)
Definition driven (reverse : bool) (nodes : list Z) (i : nat) : option Z :=
  nth_error nodes (if reverse then length nodes - 1 - i else i).
