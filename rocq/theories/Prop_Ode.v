(* Prop_Ode.v -- property C61: prediction with time-continuous models. *)
From Coq Require Import ZArith Reals Lra Lia List.
From Verif Require Import TupleFinal MonoEx RomParts RomEx RegselEx OdeEx SpecRegsel SpecOde SpecRom.
#[local] Open Scope nat_scope.

(* C61: for a trained model and valid arguments, predict hands the integrator the right-hand side of the learned model at the given input, the given initial state, the first and last of the given times, and those times. *)
Theorem C61_problem :
  forall spline junk, forall X d r needs q0 ts a b inputs U,
  SpecMono.trained X d r -> is_vec r q0 -> spline_ok spline -> time_domain ts a b -> signal spline d ts a b inputs U ->
    exists p, ode_problem spline junk d needs (V q0) (V ts) inputs = Ok p /\ iv_y0 p = q0 /\ iv_start p = a /\ iv_end p = b /\ iv_times p = ts /\
      (forall t q, (a <= t <= b)%R -> is_vec r q -> exists v, iv_f p t q = Ok v /\ velocity d r q (U t) v) /\
      (needs = false -> iv_jac p = None) /\
      (needs = true -> exists J, iv_jac p = Some J /\ forall t q, (a <= t <= b)%R -> J t q = model_jacobian junk d q (U t)).
Proof. exact problem_ok. Qed.
Print Assumptions C61_problem.

(* C61: the solutions of the problem handed over are exactly the trajectories of the learned model. *)
Theorem C61_solutions :
  forall spline junk, forall X d r needs q0 ts a b inputs U p y,
  SpecMono.trained X d r -> is_vec r q0 -> spline_ok spline -> time_domain ts a b -> signal spline d ts a b inputs U ->
    ode_problem spline junk d needs (V q0) (V ts) inputs = Ok p -> (ivp_solution r p y <-> trajectory d r U a b q0 y).
Proof. exact problem_solutions. Qed.
Print Assumptions C61_solutions.

(* C61: the integrators that use a Jacobian get the derivative of the right-hand side. *)
Theorem C61_jacobian :
  forall spline junk, forall X d r q0 ts a b inputs U p,
  SpecMono.trained X d r -> is_vec r q0 -> spline_ok spline -> time_domain ts a b -> signal spline d ts a b inputs U ->
    (forall n, length (junk n) = n) -> ode_problem spline junk d true (V q0) (V ts) inputs = Ok p ->
    exists J, iv_jac p = Some J /\ forall t q, (a <= t <= b)%R -> is_vec r q ->
      ((forall o dg H, In o (m_ops d) -> mo_ent o = Some (OPoly dg H) -> newton_guard dg r) -> exists A, J t q = Ok A) /\
      forall A dir, J t q = Ok A -> is_vec r dir -> exists f : R -> vec,
        (forall h, iv_f p t (along q dir h) = Ok (f h)) /\ forall i, i < r -> derivable_pt_lim (fun h => vget (f h) i) 0 (vget (matvec A dir) i).
Proof. exact problem_jacobian. Qed.
Print Assumptions C61_jacobian.

(* C61: two trajectories of a trained model with the same bounded input and initial state are equal. *)
Theorem C61_unique :
  forall X d r U a b q0 y z,
  SpecMono.trained X d r -> (forall t, (a <= t <= b)%R -> input_for d (U t)) -> bounded_signal U a b ->
  trajectory d r U a b q0 y -> trajectory d r U a b q0 z -> forall t, (a <= t <= b)%R -> y t = z t.
Proof. exact trajectory_unique. Qed.
Print Assumptions C61_unique.

(* C61: trajectories from different initial states do not separate faster than exponentially. *)
Theorem C61_stable :
  forall X d r U a b q0 q1 y z,
  SpecMono.trained X d r -> (a <= b)%R -> (forall t, (a <= t <= b)%R -> input_for d (U t)) -> bounded_signal U a b ->
  trajectory d r U a b q0 y -> trajectory d r U a b q1 z -> exists L, forall t, (a <= t <= b)%R -> (gap r (y t) (z t) <= gap r q0 q1 * exp (L * (t - a)))%R.
Proof. exact trajectories_gap. Qed.
Print Assumptions C61_stable.

(* C61: if the integrator is accurate to eps on the problem it is given, predict returns the trajectory of the learned model to within eps: one row per state variable, one column per time. *)
Theorem C61_accurate :
  forall spline junk solve, forall X d r needs q0 ts a b inputs U eps s,
  SpecMono.trained X d r -> is_vec r q0 -> spline_ok spline -> time_domain ts a b -> signal spline d ts a b inputs U ->
      (forall p s, ode_problem spline junk d needs (V q0) (V ts) inputs = Ok p -> solve p = Ok s -> exists z, ivp_solution r p z /\ samples r eps (iv_times p) z s) ->
      cont_predict spline solve junk d needs (V q0) (V ts) inputs = Ok s ->
      (exists y, trajectory d r U a b q0 y /\ samples r eps ts y s) /\ (bounded_signal U a b -> forall y, trajectory d r U a b q0 y -> samples r eps ts y s).
Proof. exact predict_accurate. Qed.
Print Assumptions C61_accurate.

(* C61: inputs given as an array are met at the given times. *)
Theorem C61_input_data :
  forall spline, forall d ts a b u U m,
  spline_ok spline -> m_hasin d = true -> m_m d = Some m -> time_domain ts a b -> signal spline d ts a b (Some (InArr u)) U ->
    forall j, j < length ts -> U (vget ts j) = Some (colv m (atleast_2d u) j).
Proof. exact signal_nodes. Qed.
Print Assumptions C61_input_data.

(* C61: a model that is not trained is refused. *)
Theorem C61_refuses_untrained :
  forall spline junk solve, forall d needs q0 t inputs e,
  check_trained d = Err e -> cont_predict spline solve junk d needs q0 t inputs = Err e.
Proof. exact (fun s j v => predict_refuses_untrained s j v). Qed.
Print Assumptions C61_refuses_untrained.

(* C61: arguments that are refused, before the integrator is called. *)
Theorem C61_refuses :
  forall spline junk solve, forall X d r needs q0 t inputs,
  SpecMono.trained X d r ->
      ((forall q, q0 = V q -> length q <> r) -> cont_predict spline solve junk d needs q0 t inputs = Err DimensionalityError) /\
      (forall q, q0 = V q -> is_vec r q ->
        (m_hasin d = true -> inputs = None -> cont_predict spline solve junk d needs q0 t inputs = Err ValueError) /\
        (forall T, t = M T -> cont_predict spline solve junk d needs q0 t inputs = Err ValueError) /\
        (forall m u ts, t = V ts -> m_hasin d = true -> m_m d = Some m -> inputs = Some (InArr u) -> nrows (atleast_2d u) <> m \/ ncols (atleast_2d u) <> length ts -> cont_predict spline solve junk d needs q0 t inputs = Err ValueError) /\
        (forall m f t0 ts, t = V (t0 :: ts) -> m_hasin d = true -> m_m d = Some m -> inputs = Some (InFun (FNum f)) -> m <> 1 -> cont_predict spline solve junk d needs q0 t inputs = Err DimensionalityError) /\
        (forall m f t0 ts, t = V (t0 :: ts) -> m_hasin d = true -> m_m d = Some m -> inputs = Some (InFun (FArr f)) -> (forall u, f t0 = V u -> length u <> m) -> cont_predict spline solve junk d needs q0 t inputs = Err DimensionalityError) /\
        (t = V [] -> m_hasin d = false -> cont_predict spline solve junk d needs q0 t inputs = Err IndexError)).
Proof. exact predict_refuses_args. Qed.
Print Assumptions C61_refuses.

(* C61: ROM.predict encodes the initial state, follows the trajectory of the model from there and decodes it column by column. *)
Theorem C61_rom :
  forall spline junk solve, forall X r p n0 n needs q0 e ts a b inputs U eps Q,
  SpecMono.trained X (rm_model r) p -> trained_parts n p (rm_parts r) -> columnwise_lifter n0 n (rp_lift (rm_parts r)) ->
      is_vec n0 q0 -> spline_ok spline -> time_domain ts a b -> signal spline (rm_model r) ts a b inputs U -> encode1 (rm_parts r) (V q0) = Ok e ->
      (forall iv s q, e = V q -> ode_problem spline junk (rm_model r) needs (V q) (V ts) inputs = Ok iv -> solve iv = Ok s -> exists z, ivp_solution p iv z /\ samples p eps (iv_times iv) z s) ->
      rom_predict_continuous spline solve junk r needs (V q0) (V ts) inputs = Ok Q ->
      exists q y A Q', e = V q /\ trajectory (rm_model r) p U a b q y /\ samples p eps ts y (map (map F) A) /\ Q = M Q' /\ is_mat n0 (length ts) Q' /\
        forall j, j < length ts -> decode (rm_parts r) (V (colv p A j)) None = Ok (V (colv n0 Q' j)).
Proof. exact rom_predict_accurate. Qed.
Print Assumptions C61_rom.

(* C61: predict satisfies what C53 assumes of it, if the integrator returns one row per state variable. *)
Theorem C61_search :
  forall spline junk solve, forall needs,
  (forall p s, solve p = Ok s -> length s = length (iv_y0 p) /\ exists w, Forall (fun row => length row = w) s) -> solves_well (search_predict spline solve junk needs).
Proof. exact search_well. Qed.
Print Assumptions C61_search.

(* C61: a parametric model predicts what the model evaluated at the parameter predicts. *)
Theorem C61_parametric :
  forall spline junk solve, forall d mu needs q0 t inputs e,
  snd (pevaluate d mu) = Ok e -> pcont_predict spline solve junk d mu needs q0 t inputs = cont_predict spline solve junk e needs q0 t inputs.
Proof. exact parametric_ok. Qed.
Print Assumptions C61_parametric.

(* ---- the hypotheses can be met ---- *)
(* dq/dt = 2 q + u with u = 1 - 2 t and q(0) = 0: the trajectory is q(t) = t.  The input may be a function or an array. *)
Example C61_example : SpecMono.trained X0 dU 1 /\ is_vec 1 [0%R] /\ spline_ok line2 /\ time_domain [0; 1]%R 0 1 /\ bounded_signal (fun t => Some [uf t]) 0 1 /\
  signal line2 dU [0; 1]%R 0 1 (Some (InFun (FNum uf))) (fun t => Some [uf t]) /\ signal line2 dU [0; 1]%R 0 1 (Some (InArr (V [1; -1]%R))) (fun t => Some [uf t]) /\
  trajectory dU 1 (fun t => Some [uf t]) 0 1 [0%R] OdeEx.yt.
Proof. split; [exact dU_trained|]. split; [reflexivity|]. split; [exact line2_ok|]. split; [exact OdeEx.times01|]. split; [exact bounded_f|]. split; [exact signal_f|]. split; [exact signal_a|exact trajectory_ex]. Qed.
Example C61_example_accurate : forall p s, ode_problem line2 no_junk dU true (V [0]%R) (V [0; 1]%R) (Some (InArr (V [1; -1]%R))) = Ok p -> solve_ex p = Ok s ->
  exists z, ivp_solution 1 p z /\ samples 1 0 (iv_times p) z s.
Proof. exact (solve_ex_accurate true _ signal_a). Qed.
Example C61_example_predicts : cont_predict line2 solve_ex no_junk dU true (V [0]%R) (V [0; 1]%R) (Some (InArr (V [1; -1]%R))) = Ok [[F 0; F 1]] /\
  rom_predict_continuous line2 solve_ex no_junk romU true (V [0]%R) (V [0; 1]%R) (Some (InArr (V [1; -1]%R))) = Ok (M [[0; 1]]%R).
Proof. split; [exact predicted_ex|exact rom_predicted]. Qed.
Example C61_example_parts : trained_parts 1 1 noP /\ columnwise_lifter 1 1 (rp_lift noP).
Proof. split; [exact noP_trained|reflexivity]. Qed.
