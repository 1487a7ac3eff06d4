(** Vocabulary for files of route pairs *)
From Coq Require Import String Ascii List Bool Arith NArith ZArith QArith.
From Verif Require Import Base F64 ModelText ModelConfig ModelGraph ModelBuild ModelDijkstra Spec SpecRouting SpecFmi.
Import ListNotations.
Open Scope string_scope.
Open Scope list_scope.
Open Scope nat_scope.

(** the values of i64 and usize *)
Definition fits_i64 (z : Z) : Prop := (- 2 ^ 63 <= z < 2 ^ 63)%Z.
Definition fits_usize (n : nat) : Prop := (N.of_nat n < 2 ^ 64)%N.

(** the line's words are the decimal representations of the ids and the count *)
Definition describes (l : text) (r : Z * Z * nat) : Prop :=
  words l = [show_Z (fst (fst r)); show_Z (snd (fst r)); show_nat (snd r)] /\
  fits_i64 (fst (fst r)) /\ fits_i64 (snd (fst r)) /\ fits_usize (snd r).

(** [l] consists of exactly the two ids and the number of [r], however these
    are written *)
Definition route_words (l : text) (r : Z * Z * nat) : Prop :=
  exists a b c n, words l = [a; b; c] /\ parse_i64 a = Some (fst (fst r)) /\ parse_i64 b = Some (snd (fst r)) /\
    parse_usize c = Some n /\ N.to_nat n = snd r.

(** a path of finite costs leads from [s] to [t] *)
Definition reaches (g : graph) (alphas : list f64) (s t : nat) : Prop :=
  exists l q, connects g s l t /\ costs_as g alphas l q.
(** ... going up and then down *)
Definition reaches_ch (g : graph) (alphas : list f64) (s t : nat) : Prop :=
  exists l q, connects g s l t /\ costs_as g alphas l q /\ up_down g l.

(** [p] are the ids of the two different nodes [s] and [t] *)
Definition pair_of (g : graph) (s t : nat) (p : Z * Z) : Prop :=
  s < node_count g /\ t < node_count g /\ s <> t /\ node_id g s = Ok (fst p) /\ node_id g t = Ok (snd p).

(** in increasing order of pairs *)
Fixpoint ascending (l : list (Z * Z)) : Prop :=
  match l with
  | a :: (b :: _) as t => ((fst a < fst b) \/ (fst a = fst b /\ snd a < snd b))%Z /\ ascending t
  | _ => True
  end.
