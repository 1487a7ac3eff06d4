(** Model of src/helpers/algebra.rs *)
From Coq Require Import List Bool Arith.
From Verif Require Import Base F64.
Import ListNotations.
Open Scope nat_scope.

(** models: src/helpers/algebra.rs:8-11 (Matrix): the crate nalgebra's DMatrix,
    which stores its values column after column. *)
Record matrix : Type := mkMatrix { mx_rows : nat; mx_cols : nat; mx_data : list f64 }.

(** models: `nalgebra::DMatrix::from_row_slice`, called in
    src/helpers/algebra.rs:32: the values are given row after row; another
    number of values than rows times columns panics. *)
Definition from_row_slice (nr nc : nat) (values : list f64) : res matrix :=
  if length values =? nr * nc then
    do data <- mapM (fun k => idx values ((k mod nr) * nc + k / nr)) (seq 0 (nr * nc));
    Ok {| mx_rows := nr; mx_cols := nc; mx_data := data |}
  else Panic.

(** models: src/helpers/algebra.rs:20-34 (Matrix::from_rows); `rows[0]` panics
    without rows. *)
Definition from_rows (rows : list (list f64)) : res matrix :=
  do r0 <- idx rows 0;
  from_row_slice (length rows) (length r0) (concat rows).

(** models: src/helpers/algebra.rs:43-49 (Index<usize>). *)
Definition index1 (m : matrix) (i : nat) : res f64 := idx (mx_data m) i.

(** models: src/helpers/algebra.rs:51-58 (Index<(usize, usize)>). *)
Definition index2 (m : matrix) (row col : nat) : res f64 := idx (mx_data m) (mx_cols m * col + row).

(** models: src/helpers/algebra.rs:36-40 and :64-73 (Matrix::lu, LU::solve);
    [lu] stands for the decomposition and the solving of nalgebra, which panics
    for a system that is not square or whose right side has another length. *)
Definition lu_solve (lu : matrix -> list f64 -> option (list f64)) (m : matrix) (b : list f64)
  : res (option (list f64)) :=
  if (mx_rows m =? mx_cols m) && (mx_rows m =? length b) then Ok (lu m b) else Panic.
