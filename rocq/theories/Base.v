(** Basic vocabulary of the model: results, panics and array access.

    Rust has three ways to leave a function which matter here: returning a
    value, returning [Err(msg)] and panicking (index out of bounds, [expect],
    integer underflow, ...).  A fourth one, not returning at all, is [Diverge];
    functions using fuel report running out of fuel this way and a theorem
    excludes it where termination is claimed. *)
From Coq Require Import String List Arith ZArith Bool Lia.
Import ListNotations.

(** models: src/helpers/err.rs (Result<T>, Msg) plus panics and divergence.
    Messages keep only a short tag. *)
Inductive res (A : Type) : Type :=
| Ok (a : A)
| Err (msg : string)
| Panic
| Diverge.
Arguments Ok {A} _.
Arguments Err {A} _.
Arguments Panic {A}.
Arguments Diverge {A}.

(** models: the `?` operator / sequencing of Rust statements. *)
Definition bind {A B} (r : res A) (k : A -> res B) : res B :=
  match r with
  | Ok a => k a
  | Err m => Err m
  | Panic => Panic
  | Diverge => Diverge
  end.

Notation "'do' x <- r ; k" := (bind r (fun x => k))
  (at level 200, x pattern, r at level 100, k at level 200, right associativity).

(** models: `slice[i]` (panics when out of bounds). *)
Definition idx {A} (l : list A) (i : nat) : res A :=
  match nth_error l i with
  | Some x => Ok x
  | None => Panic
  end.

(** models: `option.expect(..)` / `unwrap()`. *)
Definition expect {A} (o : option A) : res A :=
  match o with
  | Some x => Ok x
  | None => Panic
  end.

(** Total list update; index out of bounds leaves the list unchanged.  Only
    used below behind a bounds check. *)
Fixpoint upd {A} (l : list A) (i : nat) (x : A) : list A :=
  match l, i with
  | [], _ => []
  | _ :: t, O => x :: t
  | h :: t, S j => h :: upd t j x
  end.

(** models: `slice[i] = x` (panics when out of bounds). *)
Definition set {A} (l : list A) (i : nat) (x : A) : res (list A) :=
  if i <? length l then Ok (upd l i x) else Panic.

(** models: `for x in l { .. }` / `.map(f).collect()` over a function that can
    fail, stopping at the first failure. *)
Fixpoint mapM {A B} (f : A -> res B) (l : list A) : res (list B) :=
  match l with
  | [] => Ok []
  | x :: t => do y <- f x; do ys <- mapM f t; Ok (y :: ys)
  end.

(** models: a `for` loop over [l] with loop-carried state that can fail. *)
Fixpoint foldM {A S} (f : S -> A -> res S) (l : list A) (s : S) : res S :=
  match l with
  | [] => Ok s
  | x :: t => do s' <- f s x; foldM f t s'
  end.

(** models: `.iter().enumerate()`. *)
Definition enumerate {A} (l : list A) : list (nat * A) :=
  combine (seq 0 (length l)) l.

(** Stable insertion sort with a boolean "less or equal"; models
    `sort_by_key` (stable by Rust's documentation) and, where the key is
    injective or elements with equal keys are indistinguishable,
    `sort_unstable`. *)
Section Sort.
  Context {A : Type} (leb : A -> A -> bool).

  Fixpoint insert_sorted (x : A) (l : list A) : list A :=
    match l with
    | [] => [x]
    | y :: t => if leb x y then x :: y :: t else y :: insert_sorted x t
    end.

  Fixpoint sort_by (l : list A) : list A :=
    match l with
    | [] => []
    | x :: t => insert_sorted x (sort_by t)
    end.
End Sort.

(** models: `Vec::dedup_by(same)` for `same(a, b)` comparing an element with
    the previously kept one. *)
Section Dedup.
  Context {A : Type} (same : A -> A -> bool).

  Fixpoint dedup_from (prev : A) (l : list A) : list A :=
    match l with
    | [] => []
    | x :: t => if same prev x then dedup_from prev t else x :: dedup_from x t
    end.

  Definition dedup_by (l : list A) : list A :=
    match l with
    | [] => []
    | x :: t => x :: dedup_from x t
    end.
End Dedup.

(** models: core::slice::binary_search_by: repeatedly halves the window
    [base, base+size).  [cmp i] compares the i-th element with the target.
    Fuel is the window size, which strictly decreases. *)
Fixpoint bs_loop (cmp : nat -> comparison) (fuel base size : nat) : nat :=
  match fuel with
  | O => base
  | S f =>
      if size <=? 1 then base
      else
        let half := size / 2 in
        let mid := base + half in
        let base' := match cmp mid with Gt => base | _ => mid end in
        bs_loop cmp f base' (size - half)
  end.

(** [inl i] is `Ok(i)` (found), [inr i] is `Err(i)` (insertion position). *)
Definition binary_search (cmp : nat -> comparison) (len : nat) : nat + nat :=
  if len =? 0 then inr 0
  else
    let base := bs_loop cmp len 0 len in
    match cmp base with
    | Eq => inl base
    | Lt => inr (base + 1)
    | Gt => inr base
    end.

(** [f i, f (i+1), ..., ] helper used by several loops: repeat a push. *)
Definition push_n {A} (n : nat) (x : A) (l : list A) : list A := l ++ repeat x n.
