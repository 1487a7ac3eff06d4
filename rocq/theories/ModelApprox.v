(** Model of src/approximating.rs *)
From Coq Require Import QArith List Bool.
From Verif Require Import Base F64.
Import ListNotations.

(** models: src/approximating.rs:168-172 (Approx<f64>::approx). *)
Definition approx (x : f64) : f64 := fmul (fround (fdiv x F64_ABS)) F64_ABS.

(** models: src/approximating.rs:195-199 (PartialEq for Approx<f64>). *)
Definition approx_eq (a b : f64) : bool := fleb (fabs (approx (fsub a b))) F64_ABS.

(** models: src/approximating.rs:174-184 (PartialOrd for Approx<f64>). *)
Definition approx_cmp (a b : f64) : option comparison :=
  if approx_eq a b then Some Eq else fcmp a b.

(** models: the provided methods `<=`, `<` of PartialOrd on Approx<f64>
    (derived from partial_cmp by the standard library). *)
Definition approx_le (a b : f64) : bool :=
  match approx_cmp a b with Some Lt | Some Eq => true | _ => false end.
Definition approx_lt (a b : f64) : bool :=
  match approx_cmp a b with Some Lt => true | _ => false end.

(** models: src/approximating.rs:186-193 (Ord for Approx<f64>; panics on NaN). *)
Definition approx_ord (a b : f64) : res comparison := expect (approx_cmp a b).

(** models: src/approximating.rs:148-159 (PartialEq for Approx<&[T]>, zip). *)
Fixpoint approx_eq_vec (a b : list f64) : bool :=
  match a, b with
  | x :: a', y :: b' => approx_eq x y && approx_eq_vec a' b'
  | _, _ => true
  end.

(** equality of two optional orderings (derived PartialEq). *)
Definition ocmp_eqb (x y : option comparison) : bool :=
  match x, y with
  | None, None => true
  | Some Eq, Some Eq | Some Lt, Some Lt | Some Gt, Some Gt => true
  | _, _ => false
  end.

(** models: src/approximating.rs:105-117 (partial_cmp for Approx<&[T]>). *)
Definition approx_cmp_vec (a b : list f64) : option comparison :=
  match map (fun p => approx_cmp (fst p) (snd p)) (combine a b) with
  | [] => None
  | c0 :: cs => if existsb (fun c => negb (ocmp_eqb c0 c)) cs then None else c0
  end.

(** models: src/approximating.rs:119-131 (le for Approx<&[T]>). *)
Fixpoint approx_le_vec (a b : list f64) : bool :=
  match a, b with
  | x :: a', y :: b' =>
      match approx_cmp x y with
      | Some Gt => false
      | _ => approx_le_vec a' b'
      end
  | _, _ => true
  end.

(** models: src/approximating.rs:133-145 (ge for Approx<&[T]>). *)
Fixpoint approx_ge_vec (a b : list f64) : bool :=
  match a, b with
  | x :: a', y :: b' =>
      match approx_cmp x y with
      | Some Lt => false
      | _ => approx_ge_vec a' b'
      end
  | _, _ => true
  end.
