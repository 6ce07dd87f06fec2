(* ReprojModel.v -- utils/_reprojection.py.  No proofs here. *)
From Coq Require Import ZArith.
From Verif Require Export MonoModel.
#[local] Open Scope nat_scope.

(* inputs[j] of a one-dimensional array is a number, inputs[:, j] of a two-dimensional one a vector *)
Inductive uin := US (x : R) | UV (v : vec).
Definition input_at (inputs : option arr) (j : nat) : res (option uin) :=
  match inputs with
  | None => Ok None
  | Some (V u) => if j <? length u then Ok (Some (US (vget u j))) else Err IndexError
  | Some (M U) => if j <? ncols U then Ok (Some (UV (colv (nrows U) U j))) else Err IndexError
  end.
(* basis.T @ f(basis @ q[, inputs[j]]); f is the caller's function, it may raise *)
Definition reproject_step (f : vec -> option uin -> res vec) (basis : mat) (inputs : option arr) (q : vec) (j : nat) : res vec :=
  do u <- input_at inputs j; do y <- f (matvec basis q) u; matvec_r (mT basis) y.
(* reproject_discrete(f, basis, init, niters, inputs): _reprojection.py:41-62 *)
Definition reproject_discrete (f : vec -> option uin -> res vec) (basis : mat) (init : arr) (niters : Z) (inputs : option arr) : res mat :=
  let n := nrows basis in let r := ncols basis in
  match init with
  | M _ => Err ValueError
  | V q0 =>
      if negb (length q0 =? n) then Err ValueError
      else if (niters <? 0)%Z then Err ValueError               (* np.empty with a negative dimension *)
      else if (niters =? 0)%Z then Err IndexError               (* states_[:, 0] of an empty array *)
      else let x0 := matvec (mT basis) q0 in
           do cols <- iterate (reproject_step f basis inputs) (Z.to_nat niters - 1) 0 x0;
           Ok (of_columns r (x0 :: cols))
  end.
(* reproject_continuous(f, basis, states, inputs): _reprojection.py:91-114 *)
Definition reproject_continuous (f : vec -> option uin -> res vec) (basis : mat) (states : arr) (inputs : option arr) : res (mat * mat) :=
  let r := ncols basis in
  match states with
  | V q => if negb (length q =? nrows basis) then Err ValueError else Err IndexError       (* states.shape[1] *)
  | M Q =>
      if negb (nrows Q =? nrows basis) then Err ValueError
      else let S := matmul (mT basis) Q in
           do cols <- mapM (fun j => reproject_step f basis inputs (colv r S j) j) (seq 0 (ncols Q));
           Ok (S, of_columns r cols)
  end.
