(** Vocabulary of generated metrics with arithmetic that rounds *)
From Coq Require Import String List Bool Arith ZArith QArith.
From Verif Require Import Base F64 ModelUnits ModelConfig ModelGraph ModelBuild Spec SpecGenerate SpecRounded.
Import ListNotations.
Open Scope nat_scope.

(** lengths and durations can be converted into each other *)
Inductive quantity : unit_info -> unit_info -> Prop :=
| q_length u v : In u [Meters; Kilometers] -> In v [Meters; Kilometers] -> quantity u v
| q_duration u v : In u [Seconds; Minutes; Hours] -> In v [Seconds; Minutes; Hours] -> quantity u v.

Section Rounding.
  (** the arithmetic, conversions of units, distances *)
  Variables (ar : f64 -> f64) (uc : unit_info -> unit_info -> f64 -> f64) (hav : coord -> coord -> f64).

  Definition converted_by (from to : unit_info) (x y : f64) : Prop :=
    ((from = to \/ from = UF64 \/ to = UF64) /\ y = x) \/ (from <> to /\ quantity from to /\ y = uc from to x).

  (** kilometers divided by kilometers per hour, or by hours *)
  Definition calculated_by (ru au : unit_info) (x : f64) (bu : unit_info) (y z : f64) : Prop :=
    au = Kilometers /\
    ((bu = KilometersPerHour /\ ru = Hours /\ z = ar (fdiv x y)) \/
     (bu = KilometersPerHour /\ In ru [Seconds; Minutes] /\ z = uc Hours ru (ar (fdiv x y))) \/
     (bu = Hours /\ ru = KilometersPerHour /\ z = ar (fdiv x y))).

  (** what generating a category does, cf. [meets_formula] *)
  Definition meets_rounded (g g' : graph) (gc : gen_cat) : Prop :=
    match gc with
    | GCopy fu fid tu tid => adds_metric g g' tu tid (fun e y => exists x, named g fid e x /\ converted_by fu tu x y)
    | GConvert fu fid tu tid => exists i, first_at (ids_of g) fid i /\ changes_metric g g' i tu tid (converted_by fu tu)
    | GCalc ru rid au aid bu bid => adds_metric g g' ru rid (fun e z =>
        exists x y, named g aid e x /\ named g bid e y /\ calculated_by ru au x bu y z)
    | _ => meets_formula hav g g' gc
    end.
  Inductive rounded_steps : graph -> list gen_cat -> graph -> Prop :=
  | rsteps_nil g : rounded_steps g [] g
  | rsteps_cons g g' g'' gc gcs : meets_rounded g g' gc -> rounded_steps g' gcs g'' -> rounded_steps g (gc :: gcs) g''.
End Rounding.

(** how many of the second unit the first one has *)
Definition seconds_of (u : unit_info) : Z := match u with Hours => 3600 | Minutes => 60 | _ => 1 end.

(** conversions of durations that are off by a unit in the last place at most *)
Definition accurate_durations (uc : unit_info -> unit_info -> f64 -> f64) : Prop :=
  forall u v x, In u [Seconds; Minutes; Hours] -> In v [Seconds; Minutes; Hours] -> (0 <= x)%Q -> (x <= inject_Z (2 ^ 900))%Q ->
    let w := (x * inject_Z (seconds_of u) / inject_Z (seconds_of v))%Q in
    exists y, uc u v (Fin x) = Fin y /\ ((1 - 2 * u64) * w - eta64 <= y)%Q /\ (y <= (1 + 2 * u64) * w + eta64)%Q.
