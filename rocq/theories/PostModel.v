(* PostModel.v -- post/_errors.py.  Arrays have one or two axes.  Results that numpy reports as nan or inf are None.
   No proofs here. *)
From Verif Require Export OpsModel SpecPost.
From Verif Require PreModel.
#[local] Open Scope nat_scope.

Definition shape_eq (A B : arr) : bool :=
  match A, B with
  | V u, V v => length u =? length v
  | M a, M b => (nrows a =? nrows b) && (ncols a =? ncols b)
  | _, _ => false
  end.
(* a / b in numpy *)
Definition npdiv (a b : R) : option R := if Req_EM_T b 0 then None else Some (a / b)%R.
Definition odiv (a b : option R) : option R := match a, b with Some a, Some b => npdiv a b | _, _ => None end.
(* x ** p for an array element x >= 0 or the result of a quadrature, p > 0: nan below zero *)
Definition nppow (x p : R) : option R := if Rlt_dec x 0 then None else Some (rpow x p).

(* numpy.linalg.norm(v, ord=p) of a vector, p positive: its special cases 1, 2 and inf and the general formula *)
Definition vnormp (p : order) (v : vec) : res R :=
  match p with
  | Fin p => if Req_EM_T p 1 then Ok (lsum (map Rabs v))
             else if Req_EM_T p 2 then Ok (sqrt (lsum (map (fun x => (x * x)%R) v)))
             else Ok (rpow (lsum (map (fun x => rpow (Rabs x) p) v)) (1 / p)%R)
  | Inf => PreModel.vmax (map Rabs v)
  | _ => Err ValueError
  end.
(* scipy.linalg.norm(Z, ord=p, axis=0); a vector gives a scalar (a list of one number here) *)
Definition norm0 (p : order) (Z : arr) : res vec :=
  match Z with
  | V v => do x <- vnormp p v; Ok [x]
  | M m => mapM (vnormp p) (mT m)
  end.
(* scipy.linalg.norm(Z): Euclidean or Frobenius *)
Definition norm2 (Z : arr) : R := match Z with V v => sqrt (vnorm2 v) | M m => sqrt (mnorm2 m) end.
Definition arrsub (A B : arr) : arr :=
  match A, B with V u, V v => V (vsub u v) | M a, M b => M (msub a b) | _, _ => V [] end.

(* the check of p: _errors.py:135-136, 195-196 *)
Definition check_p (p : order) : res unit :=
  match p with
  | Fin p => if Rle_dec p 0 then Err ValueError else Ok tt
  | Inf => Ok tt
  | NegInf | NotScalar => Err ValueError
  end.

(* projection_error(states, basis): _errors.py:56-57, 26-28 *)
Definition projection_error (states : arr) (basis : mat) : res (R * option R) :=
  do c <- matdot (mT basis) states;
  do Qapprox <- matdot basis c;
  let absolute := norm2 (arrsub states Qapprox) in
  Ok (absolute, npdiv absolute (norm2 states)).

(* frobenius_error(Qtrue, Qapprox): _errors.py:84-92, 26-28 *)
Definition frobenius_error (Qtrue Qapprox : arr) : res (R * option R) :=
  if negb (shape_eq Qtrue Qapprox) then Err ValueError
  else match Qtrue with
       | V _ => Err ValueError
       | M _ => let absolute := norm2 (arrsub Qtrue Qapprox) in Ok (absolute, npdiv absolute (norm2 Qtrue))
       end.

(* lp_error(Qtrue, Qapprox, p, normalize): _errors.py:135-149 *)
Definition lp_error (Qtrue Qapprox : arr) (p : order) (normalize : bool) : res (vec * list (option R)) :=
  do _ <- check_p p;
  if negb (shape_eq Qtrue Qapprox) then Err ValueError
  else
    do norm_of_data <- norm0 p Qtrue;
    do norm_of_data <- (if normalize then do m <- PreModel.vmax norm_of_data; Ok (repeat m (length norm_of_data)) else Ok norm_of_data);
    do absolute <- norm0 p (arrsub Qtrue Qapprox);
    Ok (absolute, map2 npdiv absolute norm_of_data).

(* scipy.integrate.trapezoid(y, t) *)
Fixpoint trapezoid (y t : vec) : R :=
  match y, t with
  | y0 :: ((y1 :: _) as y'), t0 :: ((t1 :: _) as t') => ((t1 - t0) * ((y0 + y1) / 2) + trapezoid y' t')%R
  | _, _ => 0%R
  end.
(* pnorm(Z) for p < inf: _errors.py:216-218 *)
Definition Lpnorm_fin (p : R) (t : vec) (Z : mat) : option R :=
  nppow (trapezoid (map (fun col => lsum (map (fun x => rpow (Rabs x) p) col)) (mT Z)) t) (1 / p)%R.
(* pnorm(Z) for p == inf: _errors.py:222-223 *)
Definition Lpnorm_inf (Z : mat) : res R :=
  do ms <- mapM (fun col => PreModel.vmax (map Rabs col)) (mT Z); PreModel.vmax ms.
(* the time argument: None, an array with one axis, or one with more axes *)
Inductive times_arg := NoTime | Times (t : vec) | TimesND.

(* Lp_error(Qtrue, Qapprox, t, p): _errors.py:195-226, 26-28 *)
Definition Lp_error (Qtrue Qapprox : arr) (t : times_arg) (p : order) : res (option R * option R) :=
  do _ <- check_p p;
  if negb (shape_eq Qtrue Qapprox) then Err ValueError
  else
    let Q := atleast_2d Qtrue in
    let E := msub Q (atleast_2d Qapprox) in
    match p with
    | Fin p =>
        match t with
        | NoTime => Err ValueError
        | TimesND => Err ValueError
        | Times t => if negb (ncols Q =? length t) then Err ValueError
                     else let a := Lpnorm_fin p t E in Ok (a, odiv a (Lpnorm_fin p t Q))
        end
    | _ => do nq <- Lpnorm_inf Q; do a <- Lpnorm_inf E; Ok (Some a, npdiv a nq)
    end.
