(** C67: which units are converted when metrics are generated in f64 *)
From Coq Require Import String List Bool ZArith QArith.
From Verif Require Import Base F64 ModelUnits ModelRoundedBuild.
Import ListNotations.

(** units of lengths and of durations *)
Definition length_unit (u : unit_info) : Prop := u = Meters \/ u = Kilometers.
Definition duration_unit (u : unit_info) : Prop := u = Seconds \/ u = Minutes \/ u = Hours.

(** A number is converted between different units of lengths and between
    different units of durations; it is kept if the units are the same or one of
    them is none. Everything else is rejected. *)
Theorem C67_convert uc from to x :
  (from = to \/ from = UF64 \/ to = UF64 -> rtry_convert uc from to x = Ok x) /\
  (from <> to -> (length_unit from /\ length_unit to \/ duration_unit from /\ duration_unit to) -> rtry_convert uc from to x = Ok (uc from to x)) /\
  (from <> to -> from <> UF64 -> to <> UF64 -> ~ (length_unit from /\ length_unit to) -> ~ (duration_unit from /\ duration_unit to) ->
   exists msg, rtry_convert uc from to x = Err msg).
Proof.
  unfold length_unit, duration_unit. split; [|split].
  - intros [E|[E|E]]; subst; [destruct to|destruct to|destruct from]; reflexivity.
  - intros H [[[E|E] [F|F]]|[[E|[E|E]] [F|[F|F]]]]; subst; try reflexivity; now destruct H.
  - intros H1 H2 H3 H4 H5. destruct from, to; first [exfalso; tauto|eexists; reflexivity].
Qed.
Print Assumptions C67_convert.
Example C67_convert_case : rtry_convert (fun _ _ x => fdiv x (Fin (60 # 1))) Seconds Minutes (Fin (90 # 1)) = Ok (Fin (90 # 60)) /\
  rtry_convert (fun _ _ x => fdiv x (Fin (60 # 1))) Seconds UF64 (Fin (90 # 1)) = Ok (Fin (90 # 1)) /\
  exists msg, rtry_convert (fun _ _ x => fdiv x (Fin (60 # 1))) Seconds Meters (Fin (90 # 1)) = Err msg.
Proof. split; [vm_compute; reflexivity|]. split; [reflexivity|eexists; reflexivity]. Qed.
