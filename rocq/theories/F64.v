(** Numbers: exact rationals with infinities and NaN standing for f64. *)
From Coq Require Import QArith Qround Qabs List Bool ZArith.
From Verif Require Import Base.
Import ListNotations.

(** models: Rust's `f64`.  Simplification: arithmetic is exact (no rounding,
    no overflow, no signed zero). *)
Inductive f64 : Type :=
| Fin (q : Q)
| PInf
| NInf
| NaN.

(** models: `0.0`, used e.g. in src/helpers/mod.rs:26. *)
Definition f0 : f64 := Fin 0.

(** models: src/defaults.rs:15 (accuracy::F64_ABS = 0.000_001). *)
Definition ABSQ : Q := 1 # 1000000.
Definition F64_ABS : f64 := Fin ABSQ.

(** sign of a rational, [Eq] for zero. *)
Definition qsign (q : Q) : comparison := (q ?= 0)%Q.

(** models: `-x`. *)
Definition fneg (x : f64) : f64 :=
  match x with
  | Fin q => Fin (- q)
  | PInf => NInf
  | NInf => PInf
  | NaN => NaN
  end.

(** models: `x + y` on f64. *)
Definition fadd (x y : f64) : f64 :=
  match x, y with
  | NaN, _ | _, NaN => NaN
  | Fin a, Fin b => Fin (a + b)
  | PInf, NInf | NInf, PInf => NaN
  | PInf, _ | _, PInf => PInf
  | NInf, _ | _, NInf => NInf
  end.

(** models: `x - y` on f64. *)
Definition fsub (x y : f64) : f64 := fadd x (fneg y).

(** infinity with the sign of the product of the given signs. *)
Definition inf_signed (a b : comparison) : f64 :=
  match a, b with
  | Eq, _ | _, Eq => NaN
  | Gt, Gt | Lt, Lt => PInf
  | _, _ => NInf
  end.

(** sign of a non-NaN value. *)
Definition fsign (x : f64) : comparison :=
  match x with
  | Fin q => qsign q
  | PInf => Gt
  | NInf => Lt
  | NaN => Eq
  end.

(** models: `x * y` on f64 (`0 * inf = NaN`). *)
Definition fmul (x y : f64) : f64 :=
  match x, y with
  | NaN, _ | _, NaN => NaN
  | Fin a, Fin b => Fin (a * b)
  | _, _ => inf_signed (fsign x) (fsign y)
  end.

(** models: `x / y` on f64 (`0/0 = NaN`, `x/0 = +-inf`, zero counts as +0). *)
Definition fdiv (x y : f64) : f64 :=
  match x, y with
  | NaN, _ | _, NaN => NaN
  | Fin a, Fin b =>
      match qsign b with
      | Eq => match qsign a with Eq => NaN | Gt => PInf | Lt => NInf end
      | _ => Fin (a / b)
      end
  | Fin _, _ => Fin 0
  | _, Fin b => match qsign b with
                | Lt => fneg x
                | _ => x
                end
  | _, _ => NaN
  end.

(** models: `x.partial_cmp(&y)` on f64. *)
Definition fcmp (x y : f64) : option comparison :=
  match x, y with
  | NaN, _ | _, NaN => None
  | Fin a, Fin b => Some (a ?= b)%Q
  | PInf, PInf | NInf, NInf => Some Eq
  | PInf, _ | _, NInf => Some Gt
  | NInf, _ | _, PInf => Some Lt
  end.

(** models: `x < y`, `x <= y`, `x == y`, `x > y` on f64. *)
Definition fltb (x y : f64) : bool :=
  match fcmp x y with Some Lt => true | _ => false end.
Definition fleb (x y : f64) : bool :=
  match fcmp x y with Some Lt | Some Eq => true | _ => false end.
Definition feqb (x y : f64) : bool :=
  match fcmp x y with Some Eq => true | _ => false end.
Definition fgtb (x y : f64) : bool := fltb y x.

(** models: `f64::abs`. *)
Definition fabs (x : f64) : f64 :=
  match x with
  | Fin q => Fin (Qabs q)
  | NInf => PInf
  | _ => x
  end.

(** models: `f64::round` (half away from zero). *)
Definition qround (q : Q) : Z :=
  if Qle_bool 0 q then Qfloor (q + (1 # 2)) else (- Qfloor (- q + (1 # 2)))%Z.
Definition fround (x : f64) : f64 :=
  match x with
  | Fin q => Fin (inject_Z (qround q))
  | _ => x
  end.

(** models: `n as f64` for an unsigned integer. *)
Definition of_nat (n : nat) : f64 := Fin (inject_Z (Z.of_nat n)).

(** models: src/helpers/mod.rs:11-13 (add). *)
Fixpoint vadd (a b : list f64) : list f64 :=
  match a, b with
  | x :: a', y :: b' => fadd x y :: vadd a' b'
  | _, _ => []
  end.

(** models: src/helpers/mod.rs:15-17 (add_assign): components of [a] beyond
    the length of [b] stay unchanged. *)
Fixpoint vadd_assign (a b : list f64) : list f64 :=
  match a, b with
  | x :: a', y :: b' => fadd x y :: vadd_assign a' b'
  | _, _ => a
  end.

(** models: src/helpers/mod.rs:19-21 (sub). *)
Fixpoint vsub (a b : list f64) : list f64 :=
  match a, b with
  | x :: a', y :: b' => fsub x y :: vsub a' b'
  | _, _ => []
  end.

(** models: src/helpers/mod.rs:23-27 (dot_product): left fold from 0. *)
Fixpoint dot_from (acc : f64) (a b : list f64) : f64 :=
  match a, b with
  | x :: a', y :: b' => dot_from (fadd acc (fmul x y)) a' b'
  | _, _ => acc
  end.
Definition dot_product (a b : list f64) : f64 := dot_from f0 a b.

(** models: src/helpers/mod.rs:29-33 (le). *)
Fixpoint vle (a b : list f64) : bool :=
  match a, b with
  | x :: a', y :: b' => fleb x y && vle a' b'
  | _, _ => true
  end.
