(** Vocabulary of the properties of the calls of cmake and multi-ch *)
From Coq Require Import String List Bool.
From Verif Require Import Base.
Import ListNotations.
Open Scope string_scope.
Open Scope list_scope.

(** A command line is read from left to right; the options in [valued] take the
    argument after them as their value. *)
Fixpoint options (valued : list string) (args : list string) : list (string * option string) :=
  match args with
  | [] => []
  | k :: rest =>
      if in_dec string_dec k valued
      then match rest with
           | v :: rest => (k, Some v) :: options valued rest
           | [] => [(k, None)]
           end
      else (k, None) :: options valued rest
  end.

(** [v], and nothing else, is given for the option [k] *)
Definition given (opts : list (string * option string)) (k v : string) : Prop :=
  forall w, In (k, Some w) opts <-> w = v.
(** the option [k] is set, without value, exactly if [b] *)
Definition set_if (opts : list (string * option string)) (k : string) (b : bool) : Prop :=
  (In (k, None) opts <-> b = true) /\ forall v, ~ In (k, Some v) opts.
