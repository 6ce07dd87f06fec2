(* DdtInterp.v -- ddt/_interpolation.py (InterpDerivativeEstimator) and the verification of derivative estimators:
   ddt/_base.py:177-330.  No proofs here. *)
From Coq Require Import ZArith Reals.
From Verif Require Export DdtModel.
#[local] Open Scope nat_scope.
#[local] Open Scope list_scope.

(* ---- interpolators (scipy.interpolate) ---------------------------------------------------------------------------------- *)
(* a rule for one-dimensional interpolation: rule t v = Ok f, where f nu x is the value (nu = 0) or the derivative (nu = 1) of the
   interpolant at x; it may refuse the data (times out of order, too few) *)
Definition rule := vec -> vec -> res (nat -> R -> R).
(* Class(t, data, axis=axis): scipy takes the axis modulo the number of dimensions, 0 by default; ValueError if the data
   are not as long as t along it.  The result is called as intrp(times, nu). *)
Definition interp_class := vec -> arr -> res (nat -> vec -> arr).
Definition row_rule (f : rule) (t v : vec) : res (nat -> R -> R) := if negb (length v =? length t) then Err ValueError else f t v.
Definition interp_of (f : rule) (axis : nat) : interp_class := fun t data =>
  match data with
  | V v => do g <- row_rule f t v; Ok (fun nu ts => V (map (g nu) ts))
  | M A => if axis mod 2 =? 1 then do gs <- mapM (row_rule f t) A; Ok (fun nu ts => M (map (fun g => map (g nu) ts) gs))
           else do gs <- mapM (row_rule f t) (mT A); Ok (fun nu ts => M (map (fun x => map (fun g => g nu x) gs) ts))
  end.

(* ---- the estimator -------------------------------------------------------------------------------------------------------- *)
(* _interpolators: _interpolation.py:58-64 *)
Inductive icname := Akima | Cubic | Pchip.
(* the argument InterpolatorClass: a string, or a class with the options it is to be called with; None: a string that is no name *)
Inductive icarg := ICName (n : option icname) | ICClass (C : interp_class).
Record ide := { id_time : vec; id_class : interp_class; id_new : option vec }.
(* an argument for new_time_domain that is no array *)
Inductive newtime := NNone | NArr (a : arr) | NOther.

Section library.
  Variable lib : icname -> rule.
  (* __init__: _interpolation.py:67-104, _base.py:77-81.  min() of an empty array is a ValueError. *)
  Definition ide_init (t : arr) (c : icarg) (t2 : newtime) : res ide :=
    match t with
    | M _ => Err ValueError
    | V t =>
        do C <- match c with
                | ICName None => Err ValueError
                | ICName (Some n) => Ok (interp_of (lib n) 1)
                | ICClass C => Ok C
                end;
        match t2 with
        | NNone => Ok {| id_time := t; id_class := C; id_new := None |}
        | NArr (V t2) => match t2, t with
                         | [], _ | _, [] => Err ValueError
                         | _, _ => Ok {| id_time := t; id_class := C; id_new := Some t2 |}
                         end
        | NArr (M _) | NOther => Err TypeError
        end
    end.
End library.

(* the callers need two-dimensional arrays *)
Definition as_mat (a : arr) : res mat := match a with M A => Ok A | V _ => Err ValueError end.
(* estimate: _interpolation.py:147-191 *)
Definition ide_estimate (e : ide) (states : arr) (inputs : option arr) : res (mat * mat * option arr) :=
  match states with
  | V _ => Err DimensionalityError
  | M Q =>
      if negb (ncols Q =? length (id_time e)) then Err DimensionalityError else
      do U <- check_inputs Q inputs;
      do sp <- id_class e (id_time e) (M Q);
      match id_new e with
      | None => do D <- as_mat (sp 1 (id_time e)); Ok (Q, D, option_map M U)
      | Some t2 =>
          do Q2 <- as_mat (sp 0 t2);
          do U2 <- match U with
                   | None => Ok None
                   | Some U => do isp <- id_class e (id_time e) (M U); Ok (Some (isp 0 t2))
                   end;
          do D <- as_mat (sp 1 t2); Ok (Q2, D, U2)
      end
  end.
(* mask: _interpolation.py:226-235 *)
Definition ide_mask (e : ide) (a : arr) : res arr :=
  match id_new e with
  | None => Ok a
  | Some t2 => do sp <- id_class e (id_time e) a; Ok (sp 0 t2)
  end.

(* ---- verify(): _base.py:177-330 ------------------------------------------------------------------------------------------ *)
(* __tests: _base.py:43-74 *)
Definition vtests : list ((R -> R) * (R -> R)) :=
  [ ((fun t => t), (fun _ => 1));
    ((fun t => t ^ 4 - t ^ 3 / 3), (fun t => 4 * t ^ 3 - t ^ 2));
    (sin, cos);
    (exp, exp);
    ((fun t => 1 / (t + 1)), (fun t => -1 / (t + 1) ^ 2));
    ((fun t => t - t ^ 3 + cos t - exp (t / 2)), (fun t => 1 - 3 * t ^ 2 - sin t - exp (t / 2) / 2)) ]%R.

(* t = 1 + dt * np.arange(npts), and the functions and derivatives at these times: lines 273-278.  In the code npts is 1001, and
   the step sizes are 0.1, 0.01, ..., 1e-12. *)
Definition vtimes (npts : nat) (dt : R) : vec := map (fun j => (1 + dt * INR j)%R) (seq 0 npts).
Definition vstates (t : vec) : mat := map (fun p => map (fst p) t) vtests.
Definition vderivs (t : vec) : mat := map (fun p => map (snd p) t) vtests.
(* la.norm(d - truth) / la.norm(truth); None: the denominator is zero *)
Definition vrelerr (d truth : vec) : option R :=
  if Req_EM_T (vnorm2 truth) 0 then None else Some (sqrt (vnorm2 (vsub d truth)) / sqrt (vnorm2 truth))%R.
(* lines 281-293.  la.norm without an axis is one number, so start is always 0.  ValueError if the shapes differ; arrays with one
   row or column, which numpy would broadcast, are not treated separately. *)
Definition verrors (npts : nat) (dt : R) (Q1 D1 : mat) : res (list (option R)) :=
  let t := vtimes npts dt in
  if ncols Q1 =? 0 then Err IndexError else
  if negb (nrows Q1 =? nrows (vstates t)) then Err ValueError else
  let start := 0 in
  let truth := map (slice start (start + ncols Q1)) (vderivs t) in
  if (nrows D1 =? nrows truth) && (ncols D1 =? ncols truth) then Ok (map2 vrelerr D1 truth) else Err ValueError.

(* an estimator with state St, whose time domain can be replaced *)
Section verify.
  Context {St : Type} (estimate : St -> arr -> option arr -> res (mat * mat * option arr)) (time : St -> vec) (set_time : vec -> St -> St).
  Context (npts : nat) (dts : list R).

  (* verify_shapes(r=5, m=3): 192-240.  Q and U are the random data. *)
  Definition verify_shapes (Q U : mat) (e : St) : res unit :=
    do a <- estimate e (M Q) None;
    let '(Q1, D1, _) := a in
    if negb (nrows Q1 =? nrows Q) then Err VerificationError else
    if negb (nrows D1 =? nrows Q) then Err VerificationError else
    if negb (ncols Q1 =? ncols D1) then Err VerificationError else
    do b <- estimate e (M Q) (Some (M U));
    let '(Q2, _, U2) := b in
    match U2 with
    | None | Some (V _) => Err VerificationError
    | Some (M U2) => if negb (nrows U2 =? nrows U) then Err VerificationError
                     else if negb (ncols U2 =? ncols Q2) then Err VerificationError else Ok tt
    end.
  (* one step size: lines 274-295 *)
  Definition verify_step (e : St) (dt : R) : St * res (list (option R)) :=
    let e' := set_time (vtimes npts dt) e in
    (e', do a <- estimate e' (M (vstates (vtimes npts dt))) None; let '(Q1, D1, _) := a in verrors npts dt Q1 D1).
  Fixpoint verify_steps (e : St) (l : list R) : St * res (list (list (option R))) :=
    match l with
    | [] => (e, Ok [])
    | dt :: l => match verify_step e dt with
                 | (e', Err x) => (e', Err x)
                 | (e', Ok errs) => match verify_steps e' l with
                                    | (e'', Ok rest) => (e'', Ok (errs :: rest))
                                    | (e'', Err x) => (e'', Err x)
                                    end
                 end
    end.
  (* verify(return_errors=True): 266-330 *)
  Definition verify (Q U : mat) (e : St) : St * res (list (list (option R))) :=
    match verify_shapes Q U e with
    | Err x => (e, Err x)
    | Ok _ => match verify_steps e dts with
              | (e', Ok errs) => (set_time (time e) e', Ok errs)
              | (e', Err x) => (e', Err x)
              end
    end.
End verify.

(* the time domains of the three classes *)
Definition ufd_set (t : vec) (e : ufd) : ufd := {| u_time := t; u_scheme := u_scheme e |}.
Definition ide_set (t : vec) (e : ide) : ide := {| id_time := t; id_class := id_class e; id_new := id_new e |}.
Definition ufd_verify := verify ufd_estimate u_time ufd_set.
Definition nfd_verify := verify nfd_estimate (fun t => t) (fun t _ => t).
(* InterpDerivativeEstimator.verify: _interpolation.py:238-243 *)
Definition ide_verify (npts : nat) (dts : list R) (Q U : mat) (e : ide) : ide * res (list (list (option R))) :=
  match verify ide_estimate id_time ide_set npts dts Q U {| id_time := id_time e; id_class := id_class e; id_new := None |} with
  | (e', Ok errs) => ({| id_time := id_time e'; id_class := id_class e'; id_new := id_new e |}, Ok errs)
  | (e', Err x) => (e', Err x)
  end.
