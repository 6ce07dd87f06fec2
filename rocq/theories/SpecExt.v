(* SpecExt.v -- what the theorems assume of the SciPy / NumPy routines the code calls.
   These are definitions of properties; a theorem that needs one takes it as a hypothesis. *)
From Verif Require Import Spec NumPy.

(* scipy.linalg.solve(A, B): whenever it returns, A X = B *)
Definition solve_spec (solve : mat -> mat -> res mat) : Prop :=
  forall r c A B X, is_mat r r A -> is_mat r c B -> solve A B = Ok X -> is_mat r c X /\ matmul A X = B.
(* ... and it returns when A is invertible *)
Definition solve_total (solve : mat -> mat -> res mat) : Prop :=
  forall r c A B P, is_mat r r A -> is_mat r c B -> is_mat r r P -> matmul P A = eye r ->
    exists X, solve A B = Ok X.

(* an interpolator class interpolates on the points ps: building it succeeds and calling it at ps_i returns the i-th
   array (pval and iclass are defined in ParamModel.v; here the points may be of any type) *)
Definition interpolates {P : Type} (C : list P -> list mat -> res (P -> res mat)) (ps : list P) (d : P) : Prop :=
  forall es : list mat, length es = length ps -> exists f, C ps es = Ok f /\
  forall i, (i < length ps)%nat -> f (nth i ps d) = Ok (nth i es nil).
Definition strictly_inc (xs : vec) : Prop := forall i j, (i < j)%nat -> (j < length xs)%nat -> vget xs i < vget xs j.
