(* Prop_Lstsq.v -- properties C35 to C40, C57, C58, and the solver part of C56. *)
From Verif Require Import SpecLstsq SolverCond.
#[local] Open Scope R_scope.

(* C35: PlainSolver: the solution minimises the misfit of every row over all matrices, satisfies the normal equations,
   and is the shortest minimiser. *)
Theorem C35_plain_solver :
  forall lst s D0 Z0 s' O,
  lstsq_spec lst (pl_opts s) -> good_arr D0 -> good_arr Z0 ->
  plain_fit s D0 Z0 = Ok s' -> plain_solve lst s' = Ok O ->
  exists D Z, pl_data s' = Some (D, Z) /\ D0 = M D /\ Z = atleast_2d Z0 /\
  let k := nrows D in let d := ncols D in let r := nrows Z in
  row_minimizer r d (misfit k d D Z) O /\ row_shortest r d (misfit k d D Z) O /\ normal_eq k d r D Z O (fun _ _ => 0).
Proof. exact plain_solves. Qed.
Print Assumptions C35_plain_solver.

(* C35: L2Solver, after any history of fits and assignments. *)
Theorem C35_l2_solver :
  forall svd s D Z lam O,
  svd_spec svd -> l2_reach svd s -> odata (l2_pre s) = Some (D, Z) -> l2_reg s = Some lam ->
  l2_solve s = Ok O ->
  let k := nrows D in let d := ncols D in let r := nrows Z in
  let obj := fun O i => misfit k d D Z O i + ridge d lam O i in
  row_minimizer r d obj O /\ (lam <> 0 -> row_unique r d obj O) /\
  normal_eq k d r D Z O (fun i l => lam * lam * mget O i l).
Proof. exact l2_solves. Qed.
Print Assumptions C35_l2_solver.

(* C35: L2DecoupledSolver: one regularizer for each row. *)
Theorem C35_l2_decoupled :
  forall svd s D Z regs O,
  svd_spec svd -> ld_reach svd s -> odata (ld_pre s) = Some (D, Z) -> ld_reg s = Some regs ->
  length regs = nrows Z -> ld_solve s = Ok O ->
  let k := nrows D in let d := ncols D in let r := nrows Z in
  let obj := fun O i => misfit k d D Z O i + ridge d (vget regs i) O i in
  row_minimizer r d obj O /\ ((forall i, (i < r)%nat -> vget regs i <> 0) -> row_unique r d obj O) /\
  normal_eq k d r D Z O (fun i l => vget regs i * vget regs i * mget O i l).
Proof. exact ld_solves. Qed.
Print Assumptions C35_l2_decoupled.

(* C35: with a positive regularizer the L2 solution always exists (any shape and rank of the data matrix). *)
Theorem C35_l2_defined :
  forall svd s D Z lam,
  svd_spec svd -> l2_reach svd s -> odata (l2_pre s) = Some (D, Z) -> l2_reg s = Some lam -> lam <> 0 ->
  exists O, l2_solve s = Ok O.
Proof. exact l2_defined. Qed.
Print Assumptions C35_l2_defined.

(* C35: the same for the decoupled solver. *)
Theorem C35_l2_decoupled_defined :
  forall svd s D Z regs,
  svd_spec svd -> ld_reach svd s -> odata (ld_pre s) = Some (D, Z) -> ld_reg s = Some regs ->
  length regs = nrows Z -> (forall i, (i < nrows Z)%nat -> vget regs i <> 0) -> exists O, ld_solve s = Ok O.
Proof. exact ld_defined. Qed.
Print Assumptions C35_l2_decoupled_defined.

(* C35: TikhonovSolver, both methods; unique when the stacked matrix has independent columns. *)
Theorem C35_tikhonov :
  forall lst slv s D Z G O,
  lstsq_spec lst (tk_opts s) -> solve_spec slv -> tk_reach s ->
  tk_data s = Some (D, Z) -> tk_reg s = Some G -> is_mat (ncols D) (ncols D) G -> tk_solve lst slv s = Ok O ->
  let k := nrows D in let d := ncols D in let r := nrows Z in
  let obj := fun O i => misfit k d D Z O i + tikpen d G O i in
  row_minimizer r d obj O /\ (joint_injective k d D G -> row_unique r d obj O) /\
  (tk_method s = MLstsq -> row_shortest r d obj O) /\
  normal_eq k d r D Z O (fun i l => bsum d (fun a => mget G a l * bsum d (fun j => mget G a j * mget O i j))).
Proof. exact tk_solves. Qed.
Print Assumptions C35_tikhonov.

(* C35: TikhonovDecoupledSolver. *)
Theorem C35_tikhonov_decoupled :
  forall lst slv s D Z Gs O,
  lstsq_spec lst no_opts -> solve_spec slv -> td_reach s ->
  td_data s = Some (D, Z) -> td_reg s = Some Gs -> length Gs = nrows Z -> Forall (is_mat (ncols D) (ncols D)) Gs -> td_solve lst slv s = Ok O ->
  let k := nrows D in let d := ncols D in let r := nrows Z in
  let obj := fun O i => misfit k d D Z O i + tikpen d (nth i Gs []) O i in
  row_minimizer r d obj O /\ ((forall i, (i < r)%nat -> joint_injective k d D (nth i Gs [])) -> row_unique r d obj O) /\
  (td_method s = MLstsq -> row_shortest r d obj O) /\
  normal_eq k d r D Z O (fun i l => bsum d (fun a => mget (nth i Gs []) a l * bsum d (fun j => mget (nth i Gs []) a j * mget O i j))).
Proof. exact td_solves. Qed.
Print Assumptions C35_tikhonov_decoupled.

(* C35: equal regularizers make the decoupled solver agree with the coupled one. *)
Theorem C35_decoupled_agree_l2 :
  forall s s' lam p,
  l2_pre s = Some p -> ld_pre s' = Some p -> l2_reg s = Some lam -> ld_reg s' = Some (repeat lam (nrows (sp_Z p))) ->
  ld_solve s' = l2_solve s.
Proof. exact ld_agrees. Qed.
Print Assumptions C35_decoupled_agree_l2.

(* C35: the same for the Tikhonov solvers. *)
Theorem C35_decoupled_agree_tikhonov :
  forall lst slv s s' D Z G O O',
  lstsq_spec lst (tk_opts s) -> lstsq_spec lst no_opts -> solve_spec slv -> tk_reach s -> td_reach s' ->
  tk_data s = Some (D, Z) -> td_data s' = Some (D, Z) -> tk_reg s = Some G -> td_reg s' = Some (repeat G (nrows Z)) ->
  is_mat (ncols D) (ncols D) G ->
  joint_injective (nrows D) (ncols D) D G \/ (tk_method s = MLstsq /\ td_method s' = MLstsq) ->
  tk_solve lst slv s = Ok O -> td_solve lst slv s' = Ok O' -> O = O'.
Proof. exact td_agrees. Qed.
Print Assumptions C35_decoupled_agree_tikhonov.

(* C35: L2Solver with lambda agrees with TikhonovSolver with lambda times the identity. *)
Theorem C35_l2_is_scaled_identity :
  forall svd lst slv s s' D Z lam O O',
  svd_spec svd -> lstsq_spec lst (tk_opts s') -> solve_spec slv -> l2_reach svd s -> tk_reach s' ->
  odata (l2_pre s) = Some (D, Z) -> tk_data s' = Some (D, Z) -> l2_reg s = Some lam -> lam <> 0 ->
  tk_reg s' = Some (mscale lam (eye (ncols D))) ->
  l2_solve s = Ok O -> tk_solve lst slv s' = Ok O' -> O = O'.
Proof. exact l2_tk_agree. Qed.
Print Assumptions C35_l2_is_scaled_identity.

(* C35: fit() stores its arguments (a one-dimensional right-hand side is one row) and keeps the regularizer. *)
Theorem C35_fit_records_the_data :
  (forall svd s D Z s', svd_spec svd -> good_arr D -> good_arr Z -> l2_fit svd s D Z = Ok s' ->
     exists D', D = M D' /\ odata (l2_pre s') = Some (D', atleast_2d Z) /\ l2_reg s' = l2_reg s) /\
  (forall svd s D Z, svd_spec svd -> good_arr D -> good_arr Z -> snd (ld_fit svd s D Z) = Ok tt ->
     exists D', D = M D' /\ odata (ld_pre (fst (ld_fit svd s D Z))) = Some (D', atleast_2d Z) /\ ld_reg (fst (ld_fit svd s D Z)) = ld_reg s) /\
  (forall s D Z s', good_arr D -> good_arr Z -> tk_fit s D Z = (s', Ok tt) ->
     exists D', D = M D' /\ tk_data s' = Some (D', atleast_2d Z) /\ tk_reg s' = tk_reg s) /\
  (forall s D Z s', good_arr D -> good_arr Z -> td_fit s D Z = (s', Ok tt) ->
     exists D', D = M D' /\ td_data s' = Some (D', atleast_2d Z) /\ td_reg s' = td_reg s).
Proof. exact fits_record. Qed.
Print Assumptions C35_fit_records_the_data.

(* C35: before fit() or without a regularizer solve() raises AttributeError. *)
Theorem C35_not_ready :
  (forall lst s, pl_data s = None -> plain_solve lst s = Err AttributeError) /\
  (forall s, l2_pre s = None \/ l2_reg s = None -> l2_solve s = Err AttributeError) /\
  (forall s, ld_pre s = None \/ ld_reg s = None -> ld_solve s = Err AttributeError) /\
  (forall lst slv s, tk_data s = None \/ tk_reg s = None -> tk_solve lst slv s = Err AttributeError) /\
  (forall lst slv s, td_data s = None \/ td_reg s = None -> td_solve lst slv s = Err AttributeError) /\
  (forall s, ts_pre s = None -> ts_solve s = Err AttributeError) /\ (forall s, tl_data s = None -> tls_solve s = Err AttributeError).
Proof. exact unready. Qed.
Print Assumptions C35_not_ready.

(* C36: residual() is the squared misfit of each row. *)
Theorem C36_residual :
  forall D Z k d r O,
  dims D Z k d r -> is_mat r d O ->
  exists rs, base_residual (Some (D, Z)) (M O) = Ok rs /\ is_vec r rs /\ forall i, (i < r)%nat -> vget rs i = misfit k d D Z O i.
Proof. exact base_residual_ok. Qed.
Print Assumptions C36_residual.

(* C36: a one-dimensional argument stands for one row. *)
Theorem C36_residual_1d :
  forall D Z k d r o,
  dims D Z k d r ->
  base_residual (Some (D, Z)) (V o) = if ((r =? 1) && (length o =? d))%nat then base_residual (Some (D, Z)) (M [o]) else Err DimensionalityError.
Proof. exact base_residual_vec. Qed.
Print Assumptions C36_residual_1d.

(* C36: any other shape raises. *)
Theorem C36_residual_wrong_shape :
  forall D Z k d r O r' d',
  dims D Z k d r -> (0 < r')%nat -> is_mat r' d' O -> (r', d') <> (r, d) ->
  base_residual (Some (D, Z)) (M O) = Err DimensionalityError.
Proof. exact base_residual_bad. Qed.
Print Assumptions C36_residual_wrong_shape.

(* C36: regresidual() is the regularised objective of each row: L2Solver. *)
Theorem C36_regresidual_l2 :
  forall svd s D Z lam O,
  svd_spec svd -> l2_reach svd s -> odata (l2_pre s) = Some (D, Z) -> l2_reg s = Some lam ->
  is_mat (nrows Z) (ncols D) O ->
  exists rs, l2_regresidual s (M O) = Ok rs /\ is_vec (nrows Z) rs /\
    forall i, (i < nrows Z)%nat -> vget rs i = misfit (nrows D) (ncols D) D Z O i + ridge (ncols D) lam O i.
Proof. exact l2_regresidual_ok. Qed.
Print Assumptions C36_regresidual_l2.

(* C36: L2DecoupledSolver. *)
Theorem C36_regresidual_l2_decoupled :
  forall svd s D Z regs O,
  svd_spec svd -> ld_reach svd s -> odata (ld_pre s) = Some (D, Z) -> ld_reg s = Some regs ->
  length regs = nrows Z -> is_mat (nrows Z) (ncols D) O ->
  exists rs, ld_regresidual s (M O) = Ok rs /\ is_vec (nrows Z) rs /\
    forall i, (i < nrows Z)%nat -> vget rs i = misfit (nrows D) (ncols D) D Z O i + ridge (ncols D) (vget regs i) O i.
Proof. exact ld_regresidual_ok. Qed.
Print Assumptions C36_regresidual_l2_decoupled.

(* C36: TikhonovSolver. *)
Theorem C36_regresidual_tikhonov :
  forall s D Z G O,
  tk_reach s -> tk_data s = Some (D, Z) -> tk_reg s = Some G -> is_mat (ncols D) (ncols D) G ->
  is_mat (nrows Z) (ncols D) O ->
  exists rs, tk_regresidual s (M O) = Ok rs /\ is_vec (nrows Z) rs /\
    forall i, (i < nrows Z)%nat -> vget rs i = misfit (nrows D) (ncols D) D Z O i + tikpen (ncols D) G O i.
Proof. exact tk_regresidual_ok. Qed.
Print Assumptions C36_regresidual_tikhonov.

(* C36: TikhonovDecoupledSolver. *)
Theorem C36_regresidual_tikhonov_decoupled :
  forall s D Z Gs O,
  td_reach s -> td_data s = Some (D, Z) -> td_reg s = Some Gs -> length Gs = nrows Z ->
  Forall (is_mat (ncols D) (ncols D)) Gs -> is_mat (nrows Z) (ncols D) O ->
  exists rs, td_regresidual s (M O) = Ok rs /\ is_vec (nrows Z) rs /\
    forall i, (i < nrows Z)%nat -> vget rs i = misfit (nrows D) (ncols D) D Z O i + tikpen (ncols D) (nth i Gs []) O i.
Proof. exact td_regresidual_ok. Qed.
Print Assumptions C36_regresidual_tikhonov_decoupled.

(* C36: it is nonnegative, and smallest at the solution. *)
Theorem C36_solution_has_least_regresidual :
  (forall svd s D Z lam O O' rs rs' i, svd_spec svd -> l2_reach svd s -> odata (l2_pre s) = Some (D, Z) -> l2_reg s = Some lam ->
     l2_solve s = Ok O -> is_mat (nrows Z) (ncols D) O' -> l2_regresidual s (M O) = Ok rs -> l2_regresidual s (M O') = Ok rs' -> (i < nrows Z)%nat ->
     0 <= vget rs i <= vget rs' i) /\
  (forall svd s D Z regs O O' rs rs' i, svd_spec svd -> ld_reach svd s -> odata (ld_pre s) = Some (D, Z) -> ld_reg s = Some regs -> length regs = nrows Z ->
     ld_solve s = Ok O -> is_mat (nrows Z) (ncols D) O' -> ld_regresidual s (M O) = Ok rs -> ld_regresidual s (M O') = Ok rs' -> (i < nrows Z)%nat ->
     0 <= vget rs i <= vget rs' i) /\
  (forall lst slv s D Z G O O' rs rs' i, lstsq_spec lst (tk_opts s) -> solve_spec slv -> tk_reach s -> tk_data s = Some (D, Z) -> tk_reg s = Some G ->
     is_mat (ncols D) (ncols D) G -> tk_solve lst slv s = Ok O -> is_mat (nrows Z) (ncols D) O' ->
     tk_regresidual s (M O) = Ok rs -> tk_regresidual s (M O') = Ok rs' -> (i < nrows Z)%nat -> 0 <= vget rs i <= vget rs' i) /\
  (forall lst slv s D Z Gs O O' rs rs' i, lstsq_spec lst no_opts -> solve_spec slv -> td_reach s -> td_data s = Some (D, Z) -> td_reg s = Some Gs ->
     length Gs = nrows Z -> Forall (is_mat (ncols D) (ncols D)) Gs -> td_solve lst slv s = Ok O -> is_mat (nrows Z) (ncols D) O' ->
     td_regresidual s (M O) = Ok rs -> td_regresidual s (M O') = Ok rs' -> (i < nrows Z)%nat -> 0 <= vget rs i <= vget rs' i).
Proof. exact regresidual_least. Qed.
Print Assumptions C36_solution_has_least_regresidual.

(* C36: one-dimensional arguments in L2Solver and TikhonovSolver. *)
Theorem C36_regresidual_1d :
  (forall svd s D Z lam o, svd_spec svd -> l2_reach svd s -> odata (l2_pre s) = Some (D, Z) -> l2_reg s = Some lam -> nrows Z = 1%nat -> length o = ncols D ->
    l2_regresidual s (V o) = l2_regresidual s (M [o])) /\
  (forall s D Z G o, tk_reach s -> tk_data s = Some (D, Z) -> tk_reg s = Some G -> nrows Z = 1%nat -> length o = ncols D ->
    tk_regresidual s (V o) = tk_regresidual s (M [o])).
Proof. exact regresidual_1d. Qed.
Print Assumptions C36_regresidual_1d.

(* C36, false of the code: TikhonovDecoupledSolver.regresidual() refuses the one-dimensional argument that residual() accepts. *)
Theorem C36_decoupled_regresidual_1d_refuted :
  exists s D Z o rs, td_reach s /\ td_data s = Some (D, Z) /\ nrows Z = 1%nat /\ length o = ncols D /\
  base_residual (td_data s) (V o) = Ok rs /\ raises (td_regresidual s (V o)).
Proof. exact td_regresidual_1d_refuted. Qed.
Print Assumptions C36_decoupled_regresidual_1d_refuted.

(* C37: the regularizer has one entry for each column of the operator matrix, and its penalty is the sum over the
   operators of lambda_b^2 times the squared norm of block b; affine operators occupy one block of all their terms. *)
Theorem C37_penalty :
  forall ops params r m v,
  get_operator_regularizer ops params r m = Ok v ->
  let ws := map (regop_width r m) ops in let d := lsumn ws in
  length params = length ops /\ is_vec d v /\
  (forall O i, tikpen d (mdiag v) O i
    = bsum (length ops) (fun b => vget params b * vget params b * bsum (nth b ws 0%nat) (fun j => Rsqr (mget O i (lsumn (firstn b ws) + j))))) /\
  (forall b j, (b < length ops)%nat -> (j < nth b ws 0)%nat -> vget v (lsumn (firstn b ws) + j) = vget params b).
Proof. exact regularizer_penalty. Qed.
Print Assumptions C37_penalty.

(* C37: wrong counts, inputs without an input dimension and interpolated operators raise; everything else is defined. *)
Theorem C37_errors :
  forall ops params r m,
  (length ops <> length params -> get_operator_regularizer ops params r m = Err ValueError) /\
  (length ops = length params -> m = 0%nat -> (exists o, In o ops /\ regop_inputs o = true) -> get_operator_regularizer ops params r m = Err ValueError) /\
  (length ops = length params -> (m = 0%nat -> forall o, In o ops -> regop_inputs o = false) -> (exists c, In (RgItp c) ops) ->
     get_operator_regularizer ops params r m = Err TypeError) /\
  (length ops = length params -> (m = 0%nat -> forall o, In o ops -> regop_inputs o = false) -> (forall c, ~ In (RgItp c) ops) ->
     exists v, get_operator_regularizer ops params r m = Ok v).
Proof. exact get_reg_errors. Qed.
Print Assumptions C37_errors.

(* C37: lstsq_size() is the sum of the operator widths (times the number of affine terms). *)
Theorem C37_lstsq_size :
  forall form r m aff,
  (In LB form <-> m <> 0%nat) ->
  lstsq_size form r m aff = Ok (lsumn (map (fun l => class_width r m (letter_cls l) * match aff l with Some n => n | None => 1 end)%nat form)).
Proof. exact lstsq_size_ok. Qed.
Print Assumptions C37_lstsq_size.

(* C37: and raises ValueError when m and the presence of an input operator disagree. *)
Theorem C37_lstsq_size_errors :
  forall form r m aff,
  ~ (In LB form <-> m <> 0%nat) -> lstsq_size form r m aff = Err ValueError.
Proof. exact lstsq_size_bad. Qed.
Print Assumptions C37_lstsq_size_errors.

(* C38: with n modes the solution is the minimum-norm least-squares solution for a best rank-n approximation of D;
   with all modes it is that of D itself. *)
Theorem C38_truncated_solution :
  forall svd s D Z O n,
  svd_spec svd -> ts_reach svd s -> odata (ts_pre s) = Some (D, Z) -> ts_modes s = Some (Z.of_nat n) -> ts_solve s = Ok O ->
  let k := nrows D in let d := ncols D in let r := nrows Z in
  (n <= Nat.min k d)%nat /\
  exists Dn, is_mat k d Dn /\ rank_at_most k d n Dn /\
    (forall B, is_mat k d B -> rank_at_most k d n B -> dist2 k d D Dn <= dist2 k d D B) /\
    (n = Nat.min k d -> Dn = D) /\
    row_minimizer r d (misfit k d Dn Z) O /\ row_shortest r d (misfit k d Dn Z) O.
Proof. exact ts_solves_n. Qed.
Print Assumptions C38_truncated_solution.

(* C38: solve() returns unless the last retained singular value is zero, and then D has lower rank. *)
Theorem C38_defined :
  forall svd s D Z n,
  svd_spec svd -> ts_reach svd s -> odata (ts_pre s) = Some (D, Z) -> ts_modes s = Some n ->
  rank_at_most (nrows D) (ncols D) (py_index (Nat.min (nrows D) (ncols D)) n - 1) D \/ exists O, ts_solve s = Ok O.
Proof. exact ts_defined. Qed.
Print Assumptions C38_defined.

(* C38: assigning num_svdmodes after fit(). *)
Theorem C38_assignment :
  forall svd s D Z n,
  svd_spec svd -> ts_reach svd s -> odata (ts_pre s) = Some (D, Z) ->
  let q := Z.of_nat (Nat.min (nrows D) (ncols D)) in
  ((q < n)%Z -> ts_set s (Some n) = (s, Err ValueError)) /\
  ((0 < n <= q)%Z -> snd (ts_set s (Some n)) = Ok tt /\ ts_modes (fst (ts_set s (Some n))) = Some n /\ ts_pre (fst (ts_set s (Some n))) = ts_pre s) /\
  ((- q <= n <= 0)%Z -> snd (ts_set s (Some n)) = Ok tt /\ ts_modes (fst (ts_set s (Some n))) = Some (q + n)%Z /\ ts_pre (fst (ts_set s (Some n))) = ts_pre s) /\
  snd (ts_set s None) = Ok tt /\ ts_modes (fst (ts_set s None)) = Some q /\ ts_pre (fst (ts_set s None)) = ts_pre s.
Proof. exact ts_set_ok. Qed.
Print Assumptions C38_assignment.

(* C38: fit() with num_svdmodes assigned before. *)
Theorem C38_fit :
  forall svd s D Z s',
  svd_spec svd -> ts_reach svd s -> good_arr D -> good_arr Z -> ts_fit svd s D Z = Ok s' ->
  exists D' Z', odata (ts_pre s') = Some (D', Z') /\ D = M D' /\ Z' = atleast_2d Z /\
  let q := Z.of_nat (Nat.min (nrows D') (ncols D')) in
  ts_modes s' = Some (match ts_modes s with None => q | Some n => if (n <=? 0)%Z then (q + n)%Z else Z.min n q end).
Proof. exact ts_fit_ok. Qed.
Print Assumptions C38_fit.

(* C39: the solution solves exactly a perturbed system, error() is the size of the perturbation, and no perturbation
   of smaller size makes the system solvable. *)
Theorem C39_nearest_consistent_system :
  forall svd slv s D0 Z0 s',
  svd_spec svd -> solve_spec slv -> good_arr D0 -> good_arr Z0 ->
  tls_fit svd slv s D0 Z0 = (s', Ok tt) ->
  exists D Z O e, tl_data s' = Some (D, Z) /\ D0 = M D /\ Z = atleast_2d Z0 /\ tls_solve s' = Ok O /\ tls_error s' = Ok e /\
  let k := nrows D in let d := ncols D in let r := nrows Z in
  (d + r <= k)%nat /\ is_mat r d O /\ 0 <= e /\
  (exists E F, is_mat k d E /\ is_mat k r F /\ consistent k d r D Z E F O /\ pert2 k d r E F = e * e) /\
  (forall O' E' F', consistent k d r D Z E' F' O' -> e * e <= pert2 k d r E' F').
Proof. exact tls_solves. Qed.
Print Assumptions C39_nearest_consistent_system.

(* C39: too few rows raise ValueError. *)
Theorem C39_too_few_rows :
  forall svd slv s D0 Z0 D Z,
  base_fit D0 Z0 = Ok (D, Z) -> (nrows D < ncols D + nrows Z)%nat ->
  snd (tls_fit svd slv s D0 Z0) = Err ValueError.
Proof. exact tls_small. Qed.
Print Assumptions C39_too_few_rows.

(* C40: a raising assignment leaves an L2Solver as it was. *)
Theorem C40_l2 :
  forall s g e,
  snd (l2_set s g) = Err e -> fst (l2_set s g) = s.
Proof. exact l2_set_atomic. Qed.
Print Assumptions C40_l2.

(* C40: L2DecoupledSolver: invalid values, and any failure before fit(). *)
Theorem C40_l2_decoupled :
  forall s g,
  snd (ld_set s g) = Err ValueError \/ (ld_pre s = None /\ raises (snd (ld_set s g))) -> fst (ld_set s g) = s.
Proof. exact ld_set_atomic. Qed.
Print Assumptions C40_l2_decoupled.

(* C40: TikhonovSolver: invalid values, and any failure before fit(). *)
Theorem C40_tikhonov :
  forall s g,
  snd (tk_set s g) = Err ValueError \/ (tk_data s = None /\ raises (snd (tk_set s g))) -> fst (tk_set s g) = s.
Proof. exact tk_set_atomic. Qed.
Print Assumptions C40_tikhonov.

(* C40: TikhonovDecoupledSolver before fit(). *)
Theorem C40_tikhonov_decoupled :
  forall s gs,
  td_data s = None -> raises (snd (td_set s gs)) -> fst (td_set s gs) = s.
Proof. exact td_set_atomic. Qed.
Print Assumptions C40_tikhonov_decoupled.

(* C40: TikhonovDecoupledSolver: a negative diagonal. *)
Theorem C40_tikhonov_decoupled_negative :
  forall s l,
  (exists v, In (V v) l /\ negs v = true) -> td_set s (Some l) = (s, Err ValueError).
Proof. exact td_set_negative. Qed.
Print Assumptions C40_tikhonov_decoupled_negative.

(* C40, false of the code: after fit(), a regularizer of the wrong length raises but is kept, and solve() then returns
   a matrix with the wrong number of rows. *)
Theorem C40_l2_decoupled_shape_refuted :
  exists svd s g, svd_spec svd /\ ld_reach svd s /\ snd (ld_set s g) = Err DimensionalityError /\
  ld_reg (fst (ld_set s g)) <> ld_reg s /\
  exists D Z O, odata (ld_pre (fst (ld_set s g))) = Some (D, Z) /\ ld_solve (fst (ld_set s g)) = Ok O /\ nrows O <> nrows Z.
Proof. exact ld_set_refuted. Qed.
Print Assumptions C40_l2_decoupled_shape_refuted.

(* C40, false of the code: TikhonovSolver keeps a regularizer of the wrong shape, and solve() stops working. *)
Theorem C40_tikhonov_shape_refuted :
  exists lst slv s g O, lstsq_spec lst (tk_opts s) /\ solve_spec slv /\ tk_reach s /\ tk_solve lst slv s = Ok O /\
  snd (tk_set s g) = Err DimensionalityError /\ tk_reg (fst (tk_set s g)) <> tk_reg s /\ raises (tk_solve lst slv (fst (tk_set s g))).
Proof. exact tk_set_refuted. Qed.
Print Assumptions C40_tikhonov_shape_refuted.

(* C40, false of the code: TikhonovDecoupledSolver keeps a list of the wrong length. *)
Theorem C40_tikhonov_decoupled_shape_refuted :
  exists lst slv s g O, lstsq_spec lst no_opts /\ solve_spec slv /\ td_reach s /\ td_solve lst slv s = Ok O /\
  snd (td_set s g) = Err ValueError /\ td_reg (fst (td_set s g)) <> td_reg s /\ raises (td_solve lst slv (fst (td_set s g))).
Proof. exact td_set_refuted. Qed.
Print Assumptions C40_tikhonov_decoupled_shape_refuted.

(* C57: fit() with arguments it rejects changes nothing ... *)
Theorem C57_bad_arguments :
  forall D Z e,
  base_fit D Z = Err e ->
  (forall s, tk_fit s D Z = (s, Err e)) /\ (forall s, td_fit s D Z = (s, Err e)) /\ (forall svd s, ld_fit svd s D Z = (s, Err e)) /\
  (forall svd slv s, tls_fit svd slv s D Z = (s, Err e)).
Proof. exact fit_bad_arguments. Qed.
Print Assumptions C57_bad_arguments.

(* C57: ... such as data with different numbers of columns and rows. *)
Theorem C57_mismatch_is_rejected :
  forall k d D r k' Z,
  (0 < k)%nat -> is_mat k d D -> (0 < r)%nat -> is_mat r k' Z -> k <> k' ->
  base_fit (M D) (M Z) = Err DimensionalityError.
Proof. exact base_fit_mismatch. Qed.
Print Assumptions C57_mismatch_is_rejected.

(* C57, false of the code: a fit() that raises because of the regularizer replaces the data but not what is computed
   from it; after the regularizer is corrected, solve() answers the old problem for the new data. *)
Theorem C57_tikhonov_refuted :
  exists lst slv s D Z D' Z' s1 s2 O, lstsq_spec lst (tk_opts s) /\ solve_spec slv /\ tk_reach s /\ tk_data s = Some (D, Z) /\
  s1 = fst (tk_set s (Some (M (eye 2)))) /\
  snd (tk_fit s1 (M D') (M Z')) = Err DimensionalityError /\ tk_data (fst (tk_fit s1 (M D') (M Z'))) = Some (D', Z') /\ tk_data s1 <> Some (D', Z') /\
  s2 = fst (tk_set (fst (tk_fit s1 (M D') (M Z'))) (Some (M [[1]]))) /\
  tk_data s2 = Some (D', Z') /\ tk_reg s2 = Some [[1]] /\ tk_solve lst slv s2 = Ok O /\
  ~ row_minimizer 1 1 (fun O i => misfit 1 1 D' Z' O i + tikpen 1 [[1]] O i) O.
Proof. exact tk_stale. Qed.
Print Assumptions C57_tikhonov_refuted.

(* C57, false of the code: after a raising fit() TotalLeastSquaresSolver reports the new data and the old solution. *)
Theorem C57_total_refuted :
  exists svd slv s D Z D' Z' O, svd_spec svd /\ solve_spec slv /\
  tls_fit svd slv {| tl_data := None; tl_sol := None |} (M D) (M Z) = (s, Ok tt) /\
  snd (tls_fit svd slv s (M D') (M Z')) = Err ValueError /\ tl_data (fst (tls_fit svd slv s (M D') (M Z'))) = Some (D', Z') /\
  tls_solve s = Ok O /\ tls_solve (fst (tls_fit svd slv s (M D') (M Z'))) = Ok O /\
  (exists O', consistent 1 1 1 D' Z' [[0]] [[0]] O') /\ ~ consistent 1 1 1 D' Z' [[0]] [[0]] O.
Proof. exact tls_stale. Qed.
Print Assumptions C57_total_refuted.

(* C58: regcond() is the ratio of the largest and the smallest stretch of [D; lambda I], when D has at least as many
   rows as columns. *)
Theorem C58_regcond :
  forall svd s D Z lam c,
  svd_spec svd -> l2_reach svd s -> odata (l2_pre s) = Some (D, Z) -> l2_reg s = Some lam ->
  (ncols D <= nrows D)%nat -> l2_regcond s = Ok c -> condition_number (nrows D) (ncols D) D lam c.
Proof. exact l2_regcond_ok. Qed.
Print Assumptions C58_regcond.

(* C58: for each regularizer of the decoupled solver. *)
Theorem C58_regcond_decoupled :
  forall svd s D Z regs cs,
  svd_spec svd -> ld_reach svd s -> odata (ld_pre s) = Some (D, Z) -> ld_reg s = Some regs ->
  (ncols D <= nrows D)%nat -> ld_regcond s = Ok cs ->
  length cs = length regs /\ forall i, (i < length regs)%nat -> condition_number (nrows D) (ncols D) D (vget regs i) (vget cs i).
Proof. exact ld_regcond_ok. Qed.
Print Assumptions C58_regcond_decoupled.

(* C58, false of the code for fewer rows than columns. *)
Theorem C58_regcond_wide_refuted :
  exists svd s D Z lam c, svd_spec svd /\ l2_reach svd s /\ odata (l2_pre s) = Some (D, Z) /\ l2_reg s = Some lam /\
  l2_regcond s = Ok c /\ ~ condition_number (nrows D) (ncols D) D lam c.
Proof. exact l2_regcond_refuted. Qed.
Print Assumptions C58_regcond_wide_refuted.

(* C56: posterior(): means are the solution, precisions are (D'D + lambda^2 I) / v with v the regularised residual per
   data point: L2Solver. *)
Theorem C56_l2_posterior :
  forall svd s D Z lam O Ps,
  svd_spec svd -> l2_reach svd s -> odata (l2_pre s) = Some (D, Z) -> l2_reg s = Some lam ->
  l2_posterior s = Ok (O, Ps) ->
  let k := nrows D in let d := ncols D in let r := nrows Z in
  l2_solve s = Ok O /\ length Ps = r /\
  forall i, (i < r)%nat -> let v := (misfit k d D Z O i + ridge d lam O i) / INR k in
    0 < v /\ precision k d D (fun a b => if Nat.eqb a b then lam * lam else 0) v (nth i Ps []).
Proof. exact l2_posterior_ok. Qed.
Print Assumptions C56_l2_posterior.

(* C56: L2DecoupledSolver. *)
Theorem C56_l2_decoupled_posterior :
  forall svd s D Z regs O Ps,
  svd_spec svd -> ld_reach svd s -> odata (ld_pre s) = Some (D, Z) -> ld_reg s = Some regs ->
  length regs = nrows Z -> ld_posterior s = Ok (O, Ps) ->
  let k := nrows D in let d := ncols D in let r := nrows Z in
  ld_solve s = Ok O /\ length Ps = r /\
  forall i, (i < r)%nat -> let v := (misfit k d D Z O i + ridge d (vget regs i) O i) / INR k in
    0 < v /\ precision k d D (fun a b => if Nat.eqb a b then vget regs i * vget regs i else 0) v (nth i Ps []).
Proof. exact ld_posterior_ok. Qed.
Print Assumptions C56_l2_decoupled_posterior.

(* C56: TikhonovSolver. *)
Theorem C56_tikhonov_posterior :
  forall lst slv s D Z G O Ps,
  lstsq_spec lst (tk_opts s) -> solve_spec slv -> tk_reach s ->
  tk_data s = Some (D, Z) -> tk_reg s = Some G -> is_mat (ncols D) (ncols D) G -> tk_posterior lst slv s = Ok (O, Ps) ->
  let k := nrows D in let d := ncols D in let r := nrows Z in
  tk_solve lst slv s = Ok O /\ length Ps = r /\
  forall i, (i < r)%nat -> let v := (misfit k d D Z O i + tikpen d G O i) / INR k in
    0 < v /\ precision k d D (fun a b => bsum d (fun c => mget G c a * mget G c b)) v (nth i Ps []).
Proof. exact tk_posterior_ok. Qed.
Print Assumptions C56_tikhonov_posterior.

(* C56: TikhonovDecoupledSolver. *)
Theorem C56_tikhonov_decoupled_posterior :
  forall lst slv s D Z Gs O Ps,
  lstsq_spec lst no_opts -> solve_spec slv -> td_reach s ->
  td_data s = Some (D, Z) -> td_reg s = Some Gs -> length Gs = nrows Z -> Forall (is_mat (ncols D) (ncols D)) Gs -> td_posterior lst slv s = Ok (O, Ps) ->
  let k := nrows D in let d := ncols D in let r := nrows Z in
  td_solve lst slv s = Ok O /\ length Ps = r /\
  forall i, (i < r)%nat -> let v := (misfit k d D Z O i + tikpen d (nth i Gs []) O i) / INR k in
    0 < v /\ precision k d D (fun a b => bsum d (fun c => mget (nth i Gs []) c a * mget (nth i Gs []) c b)) v (nth i Ps []).
Proof. exact td_posterior_ok. Qed.
Print Assumptions C56_tikhonov_decoupled_posterior.

(* C56: a residual below machine precision raises RuntimeError. *)
Theorem C56_vanishing_residual :
  forall svd s D Z lam O i,
  svd_spec svd -> l2_reach svd s -> odata (l2_pre s) = Some (D, Z) -> l2_reg s = Some lam -> l2_solve s = Ok O ->
  (i < nrows Z)%nat -> misfit (nrows D) (ncols D) D Z O i + ridge (ncols D) lam O i < eps -> l2_posterior s = Err RuntimeError.
Proof. exact l2_posterior_small. Qed.
Print Assumptions C56_vanishing_residual.

(* ---- the hypotheses are met: the concrete routines of SolverReg.v and 3 x 2 data ---- *)
Definition Z23 : mat := [[2; 4; 1]; [0; 1; 5]].
Lemma gD : good_arr (M D32). Proof. apply (good_mat 3 2); try lia. split; repeat constructor. Qed.
Lemma gZ : good_arr (M Z23). Proof. apply (good_mat 2 3); try lia. split; repeat constructor. Qed.
Lemma svdE_D32 : svdE D32 = Ok ([[1; 0]; [0; 1]; [0; 0]], [2; 1], eye 2).
Proof. unfold svdE. destruct (meq D32 (eye 1)) as [K|_]; [discriminate|]. destruct (meq D32 (eye 2)) as [K|_]; [discriminate|]. apply meq_refl. Qed.
Definition preE : svdpre := {| sp_D := D32; sp_Z := Z23; sp_svals := [2; 1]; sp_ZPhi := matmul Z23 [[1; 0]; [0; 1]; [0; 0]]; sp_PsiT := eye 2 |}.
Lemma fitE : svd_fit svdE (M D32) (M Z23) = Ok preE.
Proof. unfold svd_fit, base_fit. cbn [atleast_2d]. change (ncols Z23 =? nrows D32)%nat with true. cbn [bind fst snd]. rewrite svdE_D32. reflexivity. Qed.
Example C35_plain_example : exists s' O, plain_fit {| pl_opts := no_opts; pl_data := None |} (M D32) (M Z23) = Ok s' /\ plain_solve lstE s' = Ok O.
Proof.
  do 2 eexists. split; [reflexivity|]. unfold plain_solve. cbn [pl_data pl_opts]. unfold lstE. rewrite meq_refl. reflexivity.
Qed.
Example C35_l2_example : exists s O, l2_reach svdE s /\ odata (l2_pre s) = Some (D32, Z23) /\ l2_reg s = Some 3 /\ l2_solve s = Ok O.
Proof.
  exists {| l2_reg := Some 3; l2_pre := Some preE |}.
  assert (HR : l2_reach svdE {| l2_reg := Some 3; l2_pre := Some preE |}).
  { apply (l2r_fit svdE (fst (l2_set {| l2_reg := None; l2_pre := None |} (RScalar 3))) (M D32) (M Z23)); [apply l2r_reg, l2r_new|apply gD|apply gZ|].
    unfold l2_fit. rewrite fitE. cbn [l2_set]. destruct (Rlt_dec 3 0) as [|_]; [lra|reflexivity]. }
  destruct (l2_defined svdE _ D32 Z23 3 svdE_spec HR eq_refl eq_refl ltac:(lra)) as [O HO].
  exists O. repeat split; auto.
Qed.
Example C35_decoupled_example : exists s O, ld_reach svdE s /\ odata (ld_pre s) = Some (D32, Z23) /\ ld_reg s = Some [1; 3] /\ ld_solve s = Ok O.
Proof.
  exists {| ld_reg := Some [1; 3]; ld_pre := Some preE |}.
  assert (HR : ld_reach svdE {| ld_reg := Some [1; 3]; ld_pre := Some preE |}).
  { assert (E : {| ld_reg := Some [1; 3]; ld_pre := Some preE |} = fst (ld_fit svdE (fst (ld_set {| ld_reg := None; ld_pre := None |} (RVec [1; 3]))) (M D32) (M Z23))).
    { unfold ld_fit. rewrite fitE. cbn [ld_set]. unfold negs. cbn [existsb]. destruct (Rlt_dec 1 0) as [|_]; [lra|]. destruct (Rlt_dec 3 0) as [|_]; [lra|]. reflexivity. }
    rewrite E. apply ldr_fit; [apply ldr_reg, ldr_new|apply gD|apply gZ]. }
  destruct (ld_defined svdE _ D32 Z23 [1; 3] svdE_spec HR eq_refl eq_refl eq_refl) as [O HO].
  - intros i Hi. cbn in Hi. assert (Hc : i = 0%nat \/ i = 1%nat) by lia. destruct Hc as [-> | ->]; cbn; lra.
  - exists O. repeat split; auto.
Qed.
Example C35_tikhonov_example : lstsq_spec lstE no_opts /\ solve_spec slv1 /\ exists O, tk_reach (tk1 MNormal) /\ tk_solve lstE slv1 (tk1 MNormal) = Ok O /\ joint_injective 1 1 [[1]] [[1]].
Proof.
  split; [apply lstE_spec|]. split; [apply slv1_spec|]. eexists. split; [apply tk1_reach|]. split.
  - unfold tk_solve, tk1, tk_solve1, madd_r, mkpads. cbn. destruct (Req_EM_T _ 0) as [K|_]; [lra|]. cbn. reflexivity.
  - intros x Hx _ H l Hl. specialize (H 0%nat ltac:(lia)). assert (l = 0%nat) by lia. subst. revert H. cbn. lra.
Qed.
Example C38_example : exists s O, ts_reach svdE s /\ odata (ts_pre s) = Some (D32, Z23) /\ ts_modes s = Some (Z.of_nat 1) /\ ts_solve s = Ok O.
Proof.
  exists {| ts_modes := Some 1%Z; ts_pre := Some preE |}. eexists. split; [|split; [reflexivity|split; [reflexivity|]]].
  - apply (tsr_fit svdE (fst (ts_set {| ts_modes := None; ts_pre := None |} (Some 1%Z))) (M D32) (M Z23)); [apply tsr_set, tsr_new|apply gD|apply gZ|].
    unfold ts_fit. rewrite fitE. reflexivity.
  - unfold ts_solve. cbn [ts_pre ts_modes sp_svals preE]. change (py_slice None (Some 1%Z) [2; 1]) with [2]. cbn [existsb orb]. destruct (Req_EM_T 2 0) as [|_]; [lra|]. cbn [guard bind]. reflexivity.
Qed.
Example C37_example : get_operator_regularizer [RgOp CConst; RgOp (CPoly Quadratic); RgOp CInp] [7; 8; 9] 2 1 = Ok [7; 8; 8; 8; 9].
Proof. reflexivity. Qed.
Example C58_example : exists c, l2_regcond {| l2_reg := Some 1; l2_pre := Some preE |} = Ok c.
Proof.
  unfold l2_regcond, rmax, rmin. cbn [l2_pre l2_reg sp_svals preE map].
  destruct (PreStats.vmax_total [2 * 2 + 1 * 1; 1 * 1 + 1 * 1] ltac:(discriminate)) as [a ->].
  destruct (PreStats.vmin_total [2 * 2 + 1 * 1; 1 * 1 + 1 * 1] ltac:(discriminate)) as [b Eb]. rewrite Eb. cbn [bind].
  destruct (Req_EM_T b 0) as [->|_]; [|eexists; reflexivity]. apply PreStats.vmin_ok in Eb. destruct Eb as [[K|[K|[]]] _]; lra.
Qed.
Example C56_example : exists O Ps, l2_posterior {| l2_reg := Some 3; l2_pre := Some preE |} = Ok (O, Ps).
Proof.
  destruct C35_l2_example as (s & O & HR & HD & HL & ES).
  assert (Hs : s = {| l2_reg := Some 3; l2_pre := l2_pre s |}) by (destruct s; cbn in HL; now rewrite HL).
  assert (E3 : l2_reach svdE {| l2_reg := Some 3; l2_pre := Some preE |}).
  { apply (l2r_fit svdE (fst (l2_set {| l2_reg := None; l2_pre := None |} (RScalar 3))) (M D32) (M Z23)); [apply l2r_reg, l2r_new|apply gD|apply gZ|].
    unfold l2_fit. rewrite fitE. cbn [l2_set]. destruct (Rlt_dec 3 0) as [|_]; [lra|reflexivity]. }
  clear s O HR HD HL ES Hs.
  destruct (l2_defined svdE _ D32 Z23 3 svdE_spec E3 eq_refl eq_refl ltac:(lra)) as [O ES].
  destruct (l2_solves svdE _ D32 Z23 3 O svdE_spec E3 eq_refl eq_refl ES) as ((HO & _) & _).
  destruct (l2_regresidual_ok svdE _ D32 Z23 3 O svdE_spec E3 eq_refl eq_refl HO) as (rs & Ers & HLr & Hrs).
  exists O. unfold l2_posterior. rewrite ES. cbn [bind l2_pre l2_reg]. rewrite Ers. cbn [bind].
  assert (EC : check_sigmas rs = Ok rs); [|rewrite EC; eexists; reflexivity].
  unfold check_sigmas. replace (existsb _ rs) with false; [reflexivity|]. symmetry. apply not_true_is_false. intros T. apply existsb_exists in T.
  destruct T as (x & Hx & K). apply (In_nth _ _ 0) in Hx. destruct Hx as (i & Hi & <-). change (length rs = 2%nat) in HLr. rewrite HLr in Hi.
  fold (vget rs i) in K. rewrite (Hrs i Hi) in K. destruct (Rlt_dec _ eps) as [K1|]; [|discriminate]. clear K.
  assert (HE : eps < 1).
  { unfold eps. apply Rmult_lt_reg_l with (2 ^ 52); [apply pow_lt; lra|]. rewrite Rinv_r by (apply pow_nonzero; lra). rewrite Rmult_1_r. apply Rlt_pow_R1; [lra|lia]. }
  pose proof (ridge_nonneg 2 3 O i). assert (1 <= misfit (nrows D32) (ncols D32) D32 Z23 O i).
  { unfold misfit. change (nrows D32) with 3%nat. change (ncols D32) with 2%nat. cbn [bsum].
    assert (Hc : i = 0%nat \/ i = 1%nat) by lia. destruct Hc as [-> | ->]; cbn; unfold Rsqr;
    match goal with |- 1 <= 0 + ?a * ?a + ?b * ?b + ?c * ?c => pose proof (Rle_0_sqr a) as P1; pose proof (Rle_0_sqr b) as P2; unfold Rsqr in P1, P2; ring_simplify (c * c) end; lra. }
  change (ncols D32) with 2%nat in *. lra.
Qed.
