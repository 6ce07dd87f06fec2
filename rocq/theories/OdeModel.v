(* OdeModel.v -- ContinuousModel.predict: models/mono/_nonparametric.py:961-1072, ROM.predict of such a model
   (roms/_nonparametric.py:346-348), and ParametricContinuousModel.predict (models/mono/_parametric.py:890-938).
   The integrator (scipy.integrate.solve_ivp) and the interpolation of inputs (scipy.interpolate.CubicSpline) are
   parameters.  Not modelled: the warning if the integration fails, the attribute predict_result_, options other than the
   choice of a method that gets the Jacobian, and callables whose value is sometimes a number and sometimes an array.
   No proofs here. *)
From Coq Require Import ZArith Reals.
From Verif Require Export RegselModel.
#[local] Open Scope nat_scope.
#[local] Open Scope list_scope.

(* input_func: a callable that returns numbers, a callable that returns arrays, or an array *)
Inductive infunc := FNum (f : R -> R) | FArr (f : R -> arr).
Inductive cinput := InArr (u : arr) | InFun (f : infunc).

(* what is handed to solve_ivp: lines 1057-1064 *)
Record ivp := { iv_f : R -> vec -> res vec;                     (* fun, with args=(input_func,) bound *)
                iv_jac : option (R -> vec -> res mat);          (* jac *)
                iv_start : R; iv_end : R;                       (* t_span *)
                iv_y0 : vec; iv_times : vec }.                  (* y0, t_eval *)

Section predict.
  Context (spline : vec -> mat -> res (R -> vec)) (solve : ivp -> res sol) (junk : nat -> vec).

  (* the input function after lines 1030-1046, for t[0] = t0 *)
  Definition check_infunc (m : nat) (t0 : R) (f : infunc) : res (R -> arr) :=
    match f with
    | FNum f => if m =? 1 then Ok (fun t => V [f t]) else Err DimensionalityError
    | FArr f => match f t0 with
                | V u => if length u =? m then Ok f else Err DimensionalityError
                | M _ => Err DimensionalityError
                end
    end.
  (* lines 1018-1046 *)
  Definition read_inputs (d : model) (t : vec) (inputs : option cinput) : res (option (R -> arr)) :=
    if negb (m_hasin d) then Ok None else
    match m_m d, inputs with
    | Some m, Some c =>
        do f <- match c with
                | InFun f => Ok f
                | InArr u => let U := atleast_2d u in
                            if (nrows U =? m) && (ncols U =? length t) then do s <- spline t U; Ok (FArr (fun x => V (s x)))
                            else Err ValueError
                end;
        match t with
        | [] => Err IndexError
        | t0 :: _ => do g <- check_infunc m t0 f; Ok (Some g)
        end
    | _, _ => Err ValueError
    end.
  (* self.rhs and self.jacobian as solve_ivp calls them; solve_ivp needs a one-dimensional right-hand side *)
  Definition ode_rhs (d : model) (g : option (R -> arr)) (t : R) (q : vec) : res vec :=
    do y <- cont_rhs d t (V q) g; match y with V v => Ok v | M _ => Err ValueError end.
  Definition ode_jac (d : model) (g : option (R -> arr)) (t : R) (q : vec) : res mat :=
    do u <- cont_input d t g;
    match u with
    | None => model_jacobian junk d q None
    | Some (V v) => model_jacobian junk d q (Some v)
    | Some (M _) => Err ValueError
    end.
  (* lines 1001-1064; needs_jac: options["method"] is "BDF", "Radau" or "LSODA" *)
  Definition ode_problem (d : model) (needs_jac : bool) (q0 t : arr) (inputs : option cinput) : res ivp :=
    do _ <- check_trained d;
    match q0, m_r d with
    | V q, Some r =>
        if negb (length q =? r) then Err DimensionalityError
        else if m_hasin d && match inputs with None => true | Some _ => false end then Err ValueError
        else match t with
             | M _ => Err ValueError
             | V ts =>
                 do g <- read_inputs d ts inputs;
                 match ts with
                 | [] => Err IndexError
                 | t0 :: _ =>
                     Ok {| iv_f := ode_rhs d g; iv_jac := if needs_jac then Some (ode_jac d g) else None;
                           iv_start := t0; iv_end := last ts t0; iv_y0 := q; iv_times := ts |}
                 end
             end
    | _, _ => Err DimensionalityError
    end.
  Definition cont_predict (d : model) (needs_jac : bool) (q0 t : arr) (inputs : option cinput) : res sol :=
    do p <- ode_problem d needs_jac q0 t inputs; solve p.

  (* the predict method as the regularization search calls it: roms/_nonparametric.py:640-900, RegselModel.v *)
  Definition search_predict (needs_jac : bool) : cpredict :=
    fun d q0 t u => cont_predict d needs_jac q0 (V t) (option_map (fun f => InFun (FArr (fun x => V (f x)))) u).

  (* ROM.predict(state0, t, input_func): roms/_nonparametric.py:346-348; solutions with inf or nan go no further here *)
  Definition rom_predict_continuous (r : rom) (needs_jac : bool) (q0 t : arr) (inputs : option cinput) : res arr :=
    rom_predict_with (fun e => do s <- cont_predict (rm_model r) needs_jac e t inputs;
                               match reals s with Some Y => Ok (M Y) | None => Err OtherError end) (rm_parts r) q0.

  (* predict(parameter, state0, t, input_func): models/mono/_parametric.py:936-938 *)
  Definition pcont_predict (d : pmodel) (mu : pval) (needs_jac : bool) (q0 t : arr) (inputs : option cinput) : res sol :=
    do e <- snd (pevaluate d mu); cont_predict e needs_jac q0 t inputs.
End predict.
