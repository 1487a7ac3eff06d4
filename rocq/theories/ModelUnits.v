(** Model of the units and conversions in
    src/configs/parsing/edges/metrics.rs and
    src/configs/parsing/generating/edges/metrics.rs *)
From Coq Require Import String QArith List Bool.
From Verif Require Import Base F64.
Import ListNotations.
Open Scope string_scope.

(** models: src/configs/parsing/edges/metrics.rs:51-61 and
    src/configs/parsing/generating/edges/metrics.rs:30-40 (UnitInfo; both
    enums have the same variants and are mapped one to one, :78-91). *)
Inductive unit_info : Set :=
| Meters | Kilometers | Seconds | Minutes | Hours
| KilometersPerHour | LaneCount | UF64.

(** derived PartialEq of UnitInfo. *)
Definition unit_eqb (a b : unit_info) : bool :=
  match a, b with
  | Meters, Meters | Kilometers, Kilometers | Seconds, Seconds
  | Minutes, Minutes | Hours, Hours | KilometersPerHour, KilometersPerHour
  | LaneCount, LaneCount | UF64, UF64 => true
  | _, _ => false
  end.

(** Rational constants as f64. *)
Definition fz (z : Z) : f64 := Fin (inject_Z z).

(** models: src/configs/parsing/edges/metrics.rs:94-167 and
    src/configs/parsing/generating/edges/metrics.rs:58-138 (try_convert, the
    same table written twice).  The conversions of the external crate
    kissunits are modelled as exact multiplications/divisions by 1000, 60 and
    3600. *)
Definition convert_opt (from to : unit_info) (x : f64) : option f64 :=
  match from, to with
  | Meters, Meters | Meters, UF64 => Some x
  | Meters, Kilometers => Some (fdiv x (fz 1000))
  | Meters, _ => None
  | Kilometers, Meters => Some (fmul x (fz 1000))
  | Kilometers, Kilometers | Kilometers, UF64 => Some x
  | Kilometers, _ => None
  | Seconds, Seconds | Seconds, UF64 => Some x
  | Seconds, Minutes => Some (fdiv x (fz 60))
  | Seconds, Hours => Some (fdiv x (fz 3600))
  | Seconds, _ => None
  | Minutes, Minutes | Minutes, UF64 => Some x
  | Minutes, Seconds => Some (fmul x (fz 60))
  | Minutes, Hours => Some (fdiv x (fz 60))
  | Minutes, _ => None
  | Hours, Hours | Hours, UF64 => Some x
  | Hours, Seconds => Some (fmul x (fz 3600))
  | Hours, Minutes => Some (fmul x (fz 60))
  | Hours, _ => None
  | KilometersPerHour, KilometersPerHour | KilometersPerHour, UF64 => Some x
  | KilometersPerHour, _ => None
  | LaneCount, LaneCount | LaneCount, UF64 => Some x
  | LaneCount, _ => None
  | UF64, _ => Some x
  end.

Definition try_convert (from to : unit_info) (x : f64) : res f64 :=
  match convert_opt from to x with
  | Some y => Ok y
  | None => Err "Unit can't be converted."
  end.

(** models: src/configs/parsing/edges/metrics.rs:169-174 (convert). *)
Definition convert (from to : unit_info) (x : f64) : res f64 :=
  match try_convert from to x with
  | Err _ => Panic
  | r => r
  end.

(** models: src/configs/parsing/generating/edges/metrics.rs:140-263
    (try_calc).  kissunits: km / (km/h) gives hours, km / h gives km/h. *)
Definition try_calc (result : unit_info) (unit_a : unit_info) (a : f64)
           (unit_b : unit_info) (b : f64) : res f64 :=
  let r :=
    match result, unit_a, unit_b with
    | Seconds, Kilometers, KilometersPerHour => Some (fmul (fdiv a b) (fz 3600))
    | Minutes, Kilometers, KilometersPerHour => Some (fmul (fdiv a b) (fz 60))
    | Hours, Kilometers, KilometersPerHour => Some (fdiv a b)
    | KilometersPerHour, Kilometers, Hours => Some (fdiv a b)
    | _, _, _ => None
    end in
  match r with
  | Some y => Ok y
  | None => Err "can't be calculated"
  end.
