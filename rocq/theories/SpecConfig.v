(** Vocabulary of the properties of units and routing configurations *)
From Coq Require Import String Ascii List Bool Arith ZArith QArith.
From Verif Require Import Base F64 ModelUnits ModelRoutingCfg Spec SpecGenerate.
Import ListNotations.
Open Scope string_scope.
Open Scope nat_scope.

(** what a unit measures *)
Inductive quantity : Set := Length | Time | Speed | Lanes | Raw.
Definition measures (u : unit_info) : quantity :=
  match u with
  | Meters | Kilometers => Length
  | Seconds | Minutes | Hours => Time
  | KilometersPerHour => Speed
  | LaneCount => Lanes
  | UF64 => Raw
  end.
(** the size of a unit in meters, seconds, kilometers per hour, lanes *)
Definition size (u : unit_info) : Q :=
  match u with
  | Kilometers => 1000 # 1
  | Minutes => 60 # 1
  | Hours => 3600 # 1
  | _ => 1
  end.
(** the same number, infinity or NaN *)
Definition same_value (x y : f64) : Prop :=
  match x, y with
  | Fin a, Fin b => (a == b)%Q
  | PInf, PInf | NInf, NInf | NaN, NaN => True
  | _, _ => False
  end.
(** [x] in unit [u] is as much as [y] in unit [w] *)
Definition same_amount (x : f64) (u : unit_info) (y : f64) (w : unit_info) : Prop :=
  match x, y with
  | Fin a, Fin b => (a * size u == b * size w)%Q
  | PInf, PInf | NInf, NInf | NaN, NaN => True
  | _, _ => False
  end.

(** the value of an entry's scale: nothing means infinite, as do "inf" and
    "infinity" in any case; otherwise the lower case text is a number *)
Definition scale_value (parse_f64 : string -> option f64) (s : option string) (x : f64) : Prop :=
  match s with
  | None => x = PInf
  | Some t => ((lower t = "inf" \/ lower t = "infinity") /\ x = PInf) \/
              (lower t <> "inf" /\ lower t <> "infinity" /\ parse_f64 (lower t) = Some x)
  end.
(** an entry's alpha, 1 if not given *)
Definition alpha_value (a : option f64) : f64 := match a with Some x => x | None => Fin 1 end.
(** an entry mentions the metric at position [i] *)
Definition mentions (ids : list string) (i : nat) (r : raw_entry) : Prop := first_at ids (re_id r) i.
