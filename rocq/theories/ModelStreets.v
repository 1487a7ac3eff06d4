(** Model of src/defaults.rs:277-812 (network::streets): street categories *)
From Coq Require Import String Ascii List Bool Arith NArith ZArith QArith.
From Verif Require Import Base F64 ModelText.
Import ListNotations.
Open Scope string_scope.
Open Scope list_scope.
Open Scope nat_scope.

(** models: src/network/mod.rs:63-83 (StreetCategory). *)
Inductive street : Set :=
| Motorway | MotorwayLink | Trunk | TrunkLink | Primary | PrimaryLink | Secondary | SecondaryLink | Tertiary | TertiaryLink | Unclassified | Residential | LivingStreet | Service | Track | Road | Cycleway | Pedestrian | Path.

(** models: src/network/mod.rs:85-94 (vehicles::Category). *)
Inductive vehicle : Set := Car | Bicycle | Walker.

(** models: src/configs/parsing/vehicles.rs:4-8 (Config). *)
Record vehicle_cfg : Set := mkVehicle { vc_category : vehicle; vc_picky : bool }.

(** models: the value of one key of osmpbfreader's Tags, a map. *)
Definition tags : Type := list (text * text).
Fixpoint tag (key : text) (ts : tags) : option text :=
  match ts with
  | [] => None
  | (k, v) :: ts => if text_eqb k key then Some v else tag key ts
  end.

(** the first row of a table with the given text *)
Fixpoint lookup {A} (s : text) (rows : list (string * A)) : option A :=
  match rows with
  | [] => None
  | (k, v) :: rows => if text_eqb s (T k) then Some v else lookup s rows
  end.

(** models: src/defaults.rs:287-309 (lane_count). *)
Definition lane_count (c : street) : nat :=
  match c with
  | Motorway => 3
  | MotorwayLink => 1
  | Trunk => 2
  | TrunkLink => 1
  | Primary => 2
  | PrimaryLink => 1
  | Secondary => 1
  | SecondaryLink => 1
  | Tertiary => 1
  | TertiaryLink => 1
  | Unclassified => 1
  | Residential => 1
  | LivingStreet => 1
  | Service => 1
  | Track => 1
  | Road => 1
  | Cycleway => 1
  | Pedestrian => 1
  | Path => 1
  end.

(** models: src/defaults.rs:311-333 (maxspeed, in km/h). *)
Definition default_speed (c : street) : nat :=
  match c with
  | Motorway => 130
  | MotorwayLink => 50
  | Trunk => 100
  | TrunkLink => 50
  | Primary => 100
  | PrimaryLink => 30
  | Secondary => 70
  | SecondaryLink => 30
  | Tertiary => 70
  | TertiaryLink => 30
  | Unclassified => 50
  | Residential => 50
  | LivingStreet => 15
  | Service => 20
  | Track => 30
  | Road => 50
  | Cycleway => 25
  | Pedestrian => 5
  | Path => 15
  end.

(** models: src/defaults.rs:343-365 (is_for_vehicles). *)
Definition is_for_cars (picky : bool) (c : street) : bool :=
  match c with
  | Motorway => true
  | MotorwayLink => true
  | Trunk => true
  | TrunkLink => true
  | Primary => true
  | PrimaryLink => true
  | Secondary => true
  | SecondaryLink => true
  | Tertiary => true
  | TertiaryLink => true
  | Unclassified => true
  | Residential => true
  | LivingStreet => true
  | Service => false
  | Track => negb picky
  | Road => false
  | Cycleway => false
  | Pedestrian => false
  | Path => false
  end.

(** models: src/defaults.rs:367-389 (is_for_bicycles). *)
Definition is_for_bicycles (picky : bool) (c : street) : bool :=
  match c with
  | Motorway => false
  | MotorwayLink => false
  | Trunk => false
  | TrunkLink => false
  | Primary => negb picky
  | PrimaryLink => negb picky
  | Secondary => negb picky
  | SecondaryLink => negb picky
  | Tertiary => true
  | TertiaryLink => true
  | Unclassified => true
  | Residential => true
  | LivingStreet => true
  | Service => true
  | Track => negb picky
  | Road => false
  | Cycleway => true
  | Pedestrian => negb picky
  | Path => negb picky
  end.

(** models: src/defaults.rs:391-413 (is_for_pedestrians). *)
Definition is_for_walkers (picky : bool) (c : street) : bool :=
  match c with
  | Motorway => false
  | MotorwayLink => false
  | Trunk => false
  | TrunkLink => false
  | Primary => false
  | PrimaryLink => false
  | Secondary => false
  | SecondaryLink => false
  | Tertiary => false
  | TertiaryLink => false
  | Unclassified => false
  | Residential => true
  | LivingStreet => true
  | Service => true
  | Track => true
  | Road => false
  | Cycleway => false
  | Pedestrian => true
  | Path => true
  end.

(** models: src/defaults.rs:335-341 (is_for). *)
Definition is_for (c : street) (v : vehicle) (picky : bool) : bool :=
  match v with
  | Car => is_for_cars picky c
  | Bicycle => is_for_bicycles picky c
  | Walker => is_for_walkers picky c
  end.

(** models: the literals of src/defaults.rs:616-782 (from_str); [None] marks the
    ignored ones (:711-777).  Unknown literals are not listed. *)
Definition street_names : list (string * option street) :=
  [ ("highway:motorway", Some Motorway);
    ("highway:motorway_link", Some MotorwayLink);
    ("highway:trunk", Some Trunk);
    ("highway:trunk_link", Some TrunkLink);
    ("highway:primary", Some Primary);
    ("highway:primary_link", Some PrimaryLink);
    ("highway:secondary", Some Secondary);
    ("highway:secondary_link", Some SecondaryLink);
    ("highway:tertiary", Some Tertiary);
    ("highway:tertiary_link", Some TertiaryLink);
    ("highway:traffic_calming", Some TertiaryLink);
    ("highway:unclassified_link", Some TertiaryLink);
    ("highway:give_way", Some Unclassified);
    ("highway:unclassified", Some Unclassified);
    ("highway:unclasified", Some Unclassified);
    ("highway:area:residential", Some Residential);
    ("highway:asphalt", Some Residential);
    ("highway:junction", Some Residential);
    ("highway:mini_roundabout", Some Residential);
    ("highway:residential", Some Residential);
    ("highway:living_street", Some LivingStreet);
    ("highway:razed:service", Some Service);
    ("highway:service;yes", Some Service);
    ("highway:service", Some Service);
    ("highway:sevice", Some Service);
    ("highway:service2", Some Service);
    ("highway:swervice", Some Service);
    ("highway:byway", Some Track);
    ("highway:historic", Some Track);
    ("highway:path;unclassified", Some Track);
    ("highway:tra#", Some Track);
    ("highway:track", Some Track);
    ("highway:track;path", Some Track);
    ("highway:trank", Some Track);
    ("highway:track; cycleway; cycleway; track; track", Some Track);
    ("highway:4", Some Road);
    ("highway:bridge", Some Road);
    ("highway:fixme", Some Road);
    ("highway:parking_aisle", Some Road);
    ("highway:road", Some Road);
    ("highway:yes", Some Road);
    ("highway:cycleway", Some Cycleway);
    ("highway:bridleway", Some Cycleway);
    ("highway:access_ramp", Some Pedestrian);
    ("highway:access", Some Pedestrian);
    ("highway:alley", Some Pedestrian);
    ("highway:corridor", Some Pedestrian);
    ("highway:crossing", Some Pedestrian);
    ("highway:elevator", Some Pedestrian);
    ("highway:footpath", Some Pedestrian);
    ("highway:footway rad frei", Some Pedestrian);
    ("highway:footway;service", Some Pedestrian);
    ("highway:footway", Some Pedestrian);
    ("highway:fo", Some Pedestrian);
    ("highway:f", Some Pedestrian);
    ("highway:pa", Some Pedestrian);
    ("highway:pedestrian", Some Pedestrian);
    ("highway:private_footway", Some Pedestrian);
    ("highway:ramp", Some Pedestrian);
    ("highway:schoolyard", Some Pedestrian);
    ("highway:sidewalk", Some Pedestrian);
    ("highway:stairs", Some Pedestrian);
    ("highway:steps", Some Pedestrian);
    ("highway:trail", Some Pedestrian);
    ("highway:virtual", Some Pedestrian);
    ("highway:vitrual", Some Pedestrian);
    ("highway:yes;footway", Some Pedestrian);
    ("highway:informal_path", Some Path);
    ("highway:ladder", Some Path);
    ("highway:path---", Some Path);
    ("highway:path;steps", Some Path);
    ("highway:path", Some Path);
    ("highway:path/cycleway", Some Path);
    ("highway:pathless", Some Path);
    ("highway:85", None);
    ("highway:abondoned", None);
    ("highway:abandoned:highway", None);
    ("highway:abandoned:path", None);
    ("highway:abandoned:service", None);
    ("highway:abandoned", None);
    ("highway:bus_guideway", None);
    ("highway:bus_stop", None);
    ("highway:bus", None);
    ("highway:busway", None);
    ("highway:centre_line", None);
    ("highway:climbing_access", None);
    ("highway:common", None);
    ("highway:under construction", None);
    ("highway:construction", None);
    ("highway:constuction", None);
    ("highway:demolished", None);
    ("highway:dismantled", None);
    ("highway:disused:track", None);
    ("highway:disused", None);
    ("highway:duckboards", None);
    ("highway:emergency_access_point", None);
    ("highway:emergency_bay", None);
    ("highway:escalator", None);
    ("highway:escape", None);
    ("highway:foot", None);
    ("highway:fuel", None);
    ("highway:in planung", None);
    ("highway:island", None);
    ("highway:layby", None);
    ("highway:loading_place", None);
    ("highway:lohwiese", None);
    ("highway:never_built", None);
    ("highway:nicht mehr in benutzung", None);
    ("highway:no", None);
    ("highway:none", None);
    ("highway:p", None);
    ("highway:passing_place", None);
    ("highway:piste", None);
    ("highway:place", None);
    ("highway:planned", None);
    ("highway:platform", None);
    ("highway:private", None);
    ("highway:project", None);
    ("highway:projected", None);
    ("highway:proposed", None);
    ("highway:raceway", None);
    ("highway:razed", None);
    ("highway:removed", None);
    ("highway:rest_area", None);
    ("highway:ser", None);
    ("highway:sere", None);
    ("highway:services", None);
    ("highway:stop_line", None);
    ("highway:stop", None);
    ("highway:street_lamp", None);
    ("highway:tidal_path", None);
    ("highway:traffic_island", None);
    ("highway:traffic_signals", None);
    ("highway:turning_circle", None);
    ("highway:turning_loop", None);
    ("highway:unused", None);
    ("highway:via_ferrata", None);
    ("highway:virtual_rail", None) ].

(** models: src/defaults.rs:613-783 (from_str); whether an unsupported literal is
    known decides about a log message only. *)
Definition street_from_str (s : text) : option street :=
  match lookup (to_lower (trim s)) street_names with
  | Some (Some c) => Some c
  | _ => None
  end.

(** models: src/defaults.rs:415-432 (from). *)
Definition street_from (ts : tags) : option street :=
  match tag (T "highway") ts with
  | Some v => street_from_str (T "highway:" ++ v)
  | None => None
  end.

(** models: src/defaults.rs:434-437 (parse_lane_count). *)
Definition parse_lane_count (c : street) (ts : tags) : nat := lane_count c.

(** models: src/defaults.rs:25 (speed::MIN_KMH). *)
Definition MIN_KMH : N := 5%N.

(** the speed a literal stands for: a number, or the default of the given
    street or of the street at hand *)
Inductive speed : Set := Kmh (n : nat) | DefaultOf (c : street) | OwnDefault.

(** models: the literals of src/defaults.rs:452-546 (parse_maxspeed). *)
Definition speed_names : list (string * speed) :=
  [ ("de:motorway", DefaultOf Motorway);
    ("100, 70", Kmh 100);
    ("100; 50", Kmh 100);
    ("100;70;50", Kmh 100);
    ("100;70", Kmh 100);
    ("100;80", Kmh 100);
    ("100|70", Kmh 100);
    ("50; 100", Kmh 100);
    ("50;100", Kmh 100);
    ("60 mph", Kmh 100);
    ("50 mph", Kmh 80);
    ("60;80", Kmh 80);
    ("80;60", Kmh 80);
    ("70; 50", Kmh 70);
    ("50;70", Kmh 70);
    ("50; 70", Kmh 70);
    ("40 mph", Kmh 70);
    ("60;50", Kmh 60);
    ("20; 50", Kmh 50);
    ("30 mph", Kmh 50);
    ("30,50", Kmh 50);
    ("30; 50", Kmh 50);
    ("30;50", Kmh 50);
    ("50; 30", Kmh 50);
    ("50;30", Kmh 50);
    ("50b", Kmh 50);
    ("5ß", Kmh 50);
    ("de:urban", Kmh 50);
    ("maxspeed=50", Kmh 50);
    ("20 mph", Kmh 30);
    ("30 @ (mo-fr 06:00-18:00)", Kmh 30);
    ("30 kph", Kmh 30);
    ("30;10", Kmh 30);
    ("30; 40", Kmh 30);
    ("3ß", Kmh 30);
    ("conditional=30 @ (mo-fr 06:00-22:00)", Kmh 30);
    ("de:zone:30", Kmh 30);
    ("de:zone30", Kmh 30);
    ("zone:maxspeed=de:30", Kmh 30);
    ("15 mph", Kmh 25);
    ("2ß", Kmh 20);
    ("de:bicycle_road", DefaultOf Cycleway);
    ("10 mph", DefaultOf LivingStreet);
    ("10#", DefaultOf LivingStreet);
    ("1ß", DefaultOf LivingStreet);
    ("3 mph", DefaultOf LivingStreet);
    ("4-6", DefaultOf LivingStreet);
    ("4-7", DefaultOf LivingStreet);
    ("5 mph", DefaultOf LivingStreet);
    ("6 km/h", DefaultOf LivingStreet);
    ("6,5", DefaultOf LivingStreet);
    ("7-10", DefaultOf LivingStreet);
    ("de:living_street", DefaultOf LivingStreet);
    ("de:walk", DefaultOf LivingStreet);
    ("schrittgeschwindigkeit", DefaultOf LivingStreet);
    ("walk", DefaultOf LivingStreet);
    ("*", OwnDefault);
    ("20:forward", OwnDefault);
    ("30+", OwnDefault);
    ("at:rural", OwnDefault);
    ("at:urban", OwnDefault);
    ("cz:urban", OwnDefault);
    ("de:274.1[30]", OwnDefault);
    ("de:rural", OwnDefault);
    ("de", OwnDefault);
    ("fixme:höchster üblicher wert", OwnDefault);
    ("hgv=30", OwnDefault);
    ("nome", OwnDefault);
    ("none", OwnDefault);
    ("posted time dependent", OwnDefault);
    ("signal", OwnDefault);
    ("signals", OwnDefault);
    ("variable", OwnDefault) ].

(** models: src/defaults.rs:439-561 (parse_maxspeed, in km/h). *)
Definition parse_maxspeed (c : street) (ts : tags) : N :=
  match tag (T "maxspeed") ts with
  | None => N.of_nat (default_speed c)
  | Some snippet =>
      match parse_u16 snippet with
      | Some n => N.max MIN_KMH n
      | None =>
          match lookup (to_lower (trim snippet)) speed_names with
          | Some (Kmh n) => N.of_nat n
          | Some (DefaultOf c') => N.of_nat (default_speed c')
          | Some OwnDefault | None => N.of_nat (default_speed c)
          end
      end
  end.

(** models: the literals of src/defaults.rs:571-597 (parse_oneway). *)
Definition oneway_names : list (string * (bool * bool)) :=
  [ ("1", (true, false));
    ("left;through", (true, false));
    ("motor_vehicle", (true, false));
    ("recommended", (true, false));
    ("shelter", (true, false));
    ("use_sidepath", (true, false));
    ("yes + oneway:bicycle=no", (true, false));
    ("yes", (true, false));
    ("´-1", (true, true));
    ("-1", (true, true));
    ("-1;no", (true, true));
    ("alternating", (false, false));
    ("bicycle", (false, false));
    ("cycle_barrier", (false, false));
    ("fixme", (false, false));
    ("no", (false, false));
    ("reversible", (false, false));
    ("undefined", (false, false));
    ("unknown", (false, false));
    ("yes @ (2018 aug 0 - 2018 dec 21)", (false, false));
    ("yes;no", (false, false)) ].

(** models: src/defaults.rs:563-610 (parse_oneway): (is_oneway, is_reverse). *)
Definition parse_oneway (c : street) (ts : tags) : bool * bool :=
  match tag (T "oneway") ts with
  | Some v => match lookup (to_lower (trim v)) oneway_names with
              | Some r => r
              | None => (false, false)
              end
  | None => (false, false)
  end.
