(* VerifyLiftModel.v -- LifterTemplate.verify: lift/_base.py:89-150.  A lifter, of the library or of a user, is a record of its
   methods.  Printing is not modelled; the methods return arrays of one or two dimensions.  No proofs here. *)
From Verif Require Export LiftModel VerifyModel.
#[local] Open Scope nat_scope.
#[local] Open Scope list_scope.

(* vl_ddts is None if lift_ddts() returns NotImplemented *)
Record lifter := { vl_lift : arr -> res narr; vl_unlift : narr -> res narr; vl_ddts : option (arr -> arr -> res narr) }.
(* a.shape[1] *)
Definition nshape1 (L : narr) : res nat := match L with NV _ => Err IndexError | NM m => Ok (length (hd [] m)) end.
Definition ashape1 (Q : arr) : res nat := match Q with V _ => Err IndexError | M m => Ok (ncols m) end.
(* a.shape == b.shape *)
Definition nshape_eqb (A B : narr) : bool :=
  match A, B with
  | NV u, NV v => length u =? length v
  | NM a, NM b => (length a =? length b) && (length (hd [] a) =? length (hd [] b))
  | _, _ => false
  end.
(* np.isclose(x, y) with y finite: an infinity or nan is close to no number *)
Definition nclose (x : fnum) (y : R) : bool :=
  match x with F x => rleb (Rabs (x - y)) (/ 10 ^ 8 + / 10 ^ 5 * Rabs y) | _ => false end.
(* np.allclose(A, B), for arrays of one shape *)
Definition nallclose (A : narr) (B : arr) : bool :=
  match A, B with
  | NV u, V v => forallb (fun p => nclose (fst p) (snd p)) (combine u v)
  | NM a, M b => forallb (fun r => forallb (fun p => nclose (fst p) (snd p)) (combine (fst r) (snd r))) (combine a b)
  | _, _ => false
  end.
(* the numbers in the array, if they are all finite *)
Definition fin1 (x : fnum) : res R := match x with F x => Ok x | _ => Err ValueError end.
Definition nfinite (L : narr) : res mat := match L with NV v => do r <- mapM fin1 v; Ok [r] | NM m => mapM (mapM fin1) m end.
(* lines 121-150.  The second argument of verify() is handed to ddt.ddt as it is.  scipy.linalg.norm raises ValueError if its
   argument contains an infinity or nan; the finite differences of an array that contains one contain one, too. *)
Definition v_lifter (o : lifter) (Q : arr) (t : option pyarg) (tol : R) : res unit :=
  do L <- vl_lift o Q;
  do k1 <- nshape1 L; do k <- ashape1 Q;
  do _ <- rassert (k1 =? k);
  do W <- vl_unlift o L;
  do _ <- rassert (nshape_eqb W (finite Q));
  do _ <- rassert (nallclose W Q);
  match vl_ddts o with
  | None => Ok tt
  | Some dd =>
      do _ <- dd Q Q;
      match t with
      | None => Err ValueError
      | Some t =>
          do D <- ddt Q [t] [];
          do E <- dd Q (M D);
          do _ <- rassert (nshape_eqb E L);
          do Lf <- nfinite L;
          do est <- ddt (M Lf) [t] [];
          do Ef <- nfinite E;
          rassert (negb (exceeds Ef est tol))
      end
  end.
(* QuadraticLifter and PolynomialLifter *)
Definition quad_lifter : lifter := {| vl_lift := quad_lift; vl_unlift := quad_unlift; vl_ddts := Some quad_lift_ddts |}.
Definition poly_lifter (orders : vec) : lifter := {| vl_lift := poly_lift orders; vl_unlift := poly_unlift orders; vl_ddts := Some (poly_lift_ddts orders) |}.
