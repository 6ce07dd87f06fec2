(* Prop_Models.v -- properties C27 to C32, C55 and C59. *)
From Coq Require Import ZArith Lia Lra List String.
From Verif Require Import TupleFinal GalProofs SpecMono MonoPredict MonoEq MonoFinal MonoEx MonoStmts.
#[local] Open Scope nat_scope.

(* C27: after fit() the learned operators hold the columns of the solved matrix: side by side, in order, none lost; operator_matrix gives it back; nothing else changed. *)
Theorem C27_fit_distributes :
  forall X d states lhs inputs d',
  lsx_ok X -> reach X d -> m_intrusive d = false -> good_arr states -> good_arr lhs -> valid_in inputs ->
  fit X d states lhs inputs = (d', Ok tt) ->
  exists r m s O, m_r d' = Some r /\ m_m d' = Some m /\ m_solver d' = Some s /\ lsq_solve X s = Ok O /\ distributed d' r m O /\ operator_matrix d' = Ok O /\ same_roles d d'.
Proof. exact fit_layout. Qed.
Print Assumptions C27_fit_distributes.

(* C27: the same for refit() on a trained model. *)
Theorem C27_refit_distributes :
  forall X d d',
  lsx_ok X -> reach X d -> m_intrusive d = false -> check_trained d = Ok tt -> refit X d = (d', Ok tt) ->
  exists r m s O, m_r d' = Some r /\ m_m d' = Some m /\ m_solver d' = Some s /\ lsq_solve X s = Ok O /\ distributed d' r m O /\ operator_matrix d' = Ok O /\ same_roles d d'.
Proof. exact refit_layout. Qed.
Print Assumptions C27_refit_distributes.

(* C28: fit() gives the least residual plus penalty over all values of the learnable operators, row by row and in total; known operators keep their entries. *)
Theorem C28_fit_is_best :
  forall X d states lhs inputs d' s,
  lsx_ok X -> reach X d -> m_intrusive d = false -> good_arr states -> good_arr lhs -> valid_in inputs ->
  fit X d states lhs inputs = (d', Ok tt) -> m_solver d = Some s -> best X d' s states lhs inputs /\ same_roles d d'.
Proof. exact fit_best. Qed.
Print Assumptions C28_fit_is_best.

(* C28: the same for refit() after any sequence of regularizer changes and refits since the fit. *)
Theorem C28_refit_is_best :
  forall X states lhs inputs d d' s,
  lsx_ok X -> good_arr states -> good_arr lhs -> valid_in inputs -> tuned X states lhs inputs d ->
  refit X d = (d', Ok tt) -> m_solver d = Some s -> best X d' s states lhs inputs.
Proof. exact tuned_best. Qed.
Print Assumptions C28_refit_is_best.

(* C29: rhs is the sum of the operator applications. *)
Theorem C29_rhs_is_the_sum :
  forall X d r q u,
  trained X d r -> is_vec r q -> input_for d u -> exists ys y,
  Forall2 (fun o yo => op_apply o (V q) (option_map V u) = Ok (V yo) /\ is_vec r yo) (m_ops d) ys /\
  rhs d (V q) (option_map V u) = Ok (V y) /\ is_vec r y /\ forall i, i < r -> vget y i = lsum (map (fun yo => vget yo i) ys).
Proof. exact C29_sum. Qed.
Print Assumptions C29_rhs_is_the_sum.

(* C29: in any order. *)
Theorem C29_rhs_order :
  forall X d r q u l,
  trained X d r -> is_vec r q -> input_for d u -> Permutation l (m_ops d) ->
  rhs (with_ops l d) (V q) (option_map V u) = rhs d (V q) (option_map V u).
Proof. exact C29_order. Qed.
Print Assumptions C29_rhs_order.

(* C29: rhs of a matrix of states is the matrix of the rhs of its columns. *)
Theorem C29_rhs_of_snapshots :
  forall X d r k Q U,
  trained X d r -> is_mat r k Q -> 0 < k ->
  (m_hasin d = true -> exists m U0, m_m d = Some m /\ U = Some U0 /\ is_mat m k U0) ->
  exists Y, rhs d (M Q) (option_map M U) = Ok (M Y) /\ is_mat r k Y /\
    forall j, j < k -> rhs d (V (colv r Q j)) (option_map (fun W => V (colv (nrows W) W j)) U) = Ok (V (colv r Y j)).
Proof. exact C29_columns. Qed.
Print Assumptions C29_rhs_of_snapshots.

(* C29: jacobian is the sum of the operator Jacobians (0 for ConstantOperator and InputOperator). *)
Theorem C29_jacobian_is_the_sum :
  forall X d r q u junk J,
  trained X d r -> is_vec r q -> input_for d u -> model_jacobian junk d q u = Ok J ->
  is_mat r r J /\ exists Js, Forall2 (fun o Jo => op_jacobian junk o q u = Ok Jo) (m_ops d) Js /\
    forall i j, i < r -> j < r -> mget J i j = lsum (map (fun Jo => jget Jo i j) Js).
Proof. exact C29_jac_sum. Qed.
Print Assumptions C29_jacobian_is_the_sum.

(* C29: in any order. *)
Theorem C29_jacobian_order :
  forall X d r q u junk J l,
  trained X d r -> is_vec r q -> input_for d u -> Permutation l (m_ops d) ->
  model_jacobian junk d q u = Ok J -> model_jacobian junk (with_ops l d) q u = Ok J.
Proof. exact C29_jac_order. Qed.
Print Assumptions C29_jacobian_order.

(* C29: it is defined while the index arithmetic of the compressed entries is exact (newton_guard, C17). *)
Theorem C29_jacobian_defined :
  forall X d r q u junk,
  trained X d r -> is_vec r q -> input_for d u ->
  (forall o dg H, In o (m_ops d) -> mo_ent o = Some (OPoly dg H) -> newton_guard dg r) -> exists J, model_jacobian junk d q u = Ok J.
Proof. exact C29_jac_defined. Qed.
Print Assumptions C29_jacobian_defined.

(* C29: it is the derivative of rhs in every direction. *)
Theorem C29_jacobian_is_the_derivative :
  forall X d r q u junk J dir,
  trained X d r -> is_vec r q -> input_for d u -> (forall k, length (junk k) = k) ->
  model_jacobian junk d q u = Ok J -> is_vec r dir -> exists f : R -> vec,
    (forall t, rhs d (V (along q dir t)) (option_map V u) = Ok (V (f t))) /\
    forall i, i < r -> derivable_pt_lim (fun t => vget (f t) i) 0 (vget (matvec J dir) i).
Proof. exact C29_jac_derivative. Qed.
Print Assumptions C29_jacobian_is_the_derivative.

(* C29: ContinuousModel.rhs(t, q, f) = rhs(q, f(t)). *)
Theorem C29_continuous_rhs :
  forall d t q f,
  cont_rhs d t q f = if m_hasin d then match f with Some g => rhs d q (Some (g t)) | None => Err TypeError end else rhs d q None.
Proof. exact C29_continuous. Qed.
Print Assumptions C29_continuous_rhs.

(* C29: the same for jacobian. *)
Theorem C29_continuous_jacobian :
  forall d t q f junk,
  cont_jacobian junk d t q f = if m_hasin d then match f with Some g => model_jacobian junk d q (Some (g t)) | None => Err TypeError end else model_jacobian junk d q None.
Proof. exact C29_continuous_jac. Qed.
Print Assumptions C29_continuous_jacobian.

(* C30: n columns, the first is q0 and column j+1 is rhs(column j, input j). *)
Theorem C30_recurrence :
  forall X d r q0 n inputs,
  trained X d r -> is_vec r q0 -> enough_inputs d inputs n -> 1 <= n -> exists Q,
  predict d (V q0) (Z.of_nat n) inputs = Ok Q /\ is_mat r n Q /\ colv r Q 0 = q0 /\
  forall j, j + 1 < n -> rhs d (V (colv r Q j)) (step_input d inputs j) = Ok (V (colv r Q (j + 1))).
Proof. exact C30_rec. Qed.
Print Assumptions C30_recurrence.

(* C30: a shorter prediction is a prefix of a longer one. *)
Theorem C30_prefix :
  forall X d r q0 n n' inputs Q,
  trained X d r -> is_vec r q0 -> enough_inputs d inputs n -> 1 <= n' -> n' <= n ->
  predict d (V q0) (Z.of_nat n) inputs = Ok Q -> predict d (V q0) (Z.of_nat n') inputs = Ok (mcols 0 n' Q).
Proof. exact C30_pre. Qed.
Print Assumptions C30_prefix.

(* C30: restarting from column j with the remaining inputs continues the trajectory. *)
Theorem C30_restart :
  forall X d r q0 n j inputs Q,
  trained X d r -> is_vec r q0 -> enough_inputs d inputs n -> j < n ->
  predict d (V q0) (Z.of_nat n) inputs = Ok Q -> predict d (V (colv r Q j)) (Z.of_nat (n - j)) (later j inputs) = Ok (mcols j n Q).
Proof. exact C30_res. Qed.
Print Assumptions C30_restart.

(* C30: a model without input operators ignores the inputs. *)
Theorem C30_inputs_not_used :
  forall d q0 n inputs,
  m_hasin d = false -> predict d q0 n inputs = predict d q0 n None.
Proof. exact C30_ignores. Qed.
Print Assumptions C30_inputs_not_used.

(* C30: an initial state of the wrong shape raises DimensionalityError. *)
Theorem C30_wrong_state :
  forall d r q0 n inputs,
  check_trained d = Ok tt -> m_r d = Some r ->
  (match q0 with V q => length q <> r | M _ => True end) -> predict d q0 n inputs = Err DimensionalityError.
Proof. exact C30_bad_state. Qed.
Print Assumptions C30_wrong_state.

(* C30: fewer than one iteration, missing inputs, inputs of the wrong size or too few raise ValueError. *)
Theorem C30_wrong_inputs :
  forall d r q0 n inputs,
  check_trained d = Ok tt -> m_r d = Some r -> length q0 = r ->
  (n < 1)%Z \/ (m_hasin d = true /\ (inputs = None \/ exists u, inputs = Some (UArr u) /\ (m_m d <> Some (nrows (atleast_2d u)) \/ (Z.of_nat (ncols (atleast_2d u)) < n - 1)%Z))) ->
  predict d (V q0) n inputs = Err ValueError.
Proof. exact C30_bad_steps. Qed.
Print Assumptions C30_wrong_inputs.

(* C30: inputs must not be a function. *)
Theorem C30_callable_inputs :
  forall d r q0 n,
  check_trained d = Ok tt -> m_r d = Some r -> length q0 = r -> m_hasin d = true -> (1 <= n)%Z ->
  predict d (V q0) n (Some UCall) = Err TypeError.
Proof. exact C30_bad_callable. Qed.
Print Assumptions C30_callable_inputs.

(* C30: an untrained model raises AttributeError. *)
Theorem C30_not_trained :
  forall d q0 n inputs,
  check_trained d <> Ok tt -> predict d q0 n inputs = Err AttributeError.
Proof. exact C30_untrained. Qed.
Print Assumptions C30_not_trained.

(* C31: column pairs_before t + j of the stacked states is snapshot j of trajectory t and the same column of the next states is snapshot j+1 of the same trajectory; nothing else is in them. *)
Theorem C31_pairs :
  forall r ks Qs,
  0 < r -> trajectories r ks Qs -> exists S N, stack_trajectories Qs None = Ok (S, N, None) /\
  is_mat r (lsumn (map (fun k => k - 1) ks)) S /\ is_mat r (lsumn (map (fun k => k - 1) ks)) N /\
  forall t Q k j, nth_error Qs t = Some Q -> nth_error ks t = Some k -> j + 1 < k ->
    colv r S (pairs_before t ks + j) = colv r Q j /\ colv r N (pairs_before t ks + j) = colv r Q (j + 1).
Proof. exact C31_plain. Qed.
Print Assumptions C31_pairs.

(* C31: the inputs stay aligned with the earlier state of each pair. *)
Theorem C31_pairs_with_inputs :
  forall r ks Qs m us,
  0 < r -> trajectories r ks Qs -> 0 < m -> inputs2 m ks us -> exists S N U, stack_trajectories Qs (Some us) = Ok (S, N, Some (M U)) /\
  stack_trajectories Qs None = Ok (S, N, None) /\ is_mat m (lsumn (map (fun k => k - 1) ks)) U /\
  forall t u k j, nth_error us t = Some u -> nth_error ks t = Some k -> j + 1 < k -> colv m U (pairs_before t ks + j) = colv m (atleast_2d u) j.
Proof. exact C31_two. Qed.
Print Assumptions C31_pairs_with_inputs.

(* C31: the same for one-dimensional inputs. *)
Theorem C31_pairs_with_scalar_inputs :
  forall r ks Qs us,
  0 < r -> trajectories r ks Qs -> inputs1 ks us -> exists S N w, stack_trajectories Qs (Some us) = Ok (S, N, Some (V w)) /\
  stack_trajectories Qs None = Ok (S, N, None) /\ length w = lsumn (map (fun k => k - 1) ks) /\
  forall t u k j, nth_error us t = Some u -> nth_error ks t = Some k -> j + 1 < k -> exists v, u = V v /\ vget w (pairs_before t ks + j) = vget v j.
Proof. exact C31_one. Qed.
Print Assumptions C31_pairs_with_scalar_inputs.

(* C31: DiscreteModel.fit(states) fits the successive pairs. *)
Theorem C31_fit_pairs :
  forall X d r k Q inputs,
  m_frozen d = false -> 0 < r -> 1 < k -> is_mat r k Q -> exists S N, is_mat r (k - 1) S /\ is_mat r (k - 1) N /\
  (forall j, j + 1 < k -> colv r S j = colv r Q j /\ colv r N j = colv r Q (j + 1)) /\
  discrete_fit X d (M Q) None inputs = fit X d (M S) (M N) (option_map (cut (k - 1)) inputs).
Proof. exact C31_fit. Qed.
Print Assumptions C31_fit_pairs.

(* C31: with the first k - 1 inputs. *)
Theorem C31_fit_inputs :
  forall m k c U j,
  is_mat m k U -> c <= k -> is_mat m c (map (firstn c) U) /\ (j < c -> colv m (map (firstn c) U) j = colv m U j).
Proof. exact C31_cut. Qed.
Print Assumptions C31_fit_inputs.

(* C32: after any history all entries have the model's dimensions, inputs are expected exactly when an operator takes one, no two learned operators share a class. *)
Theorem C32_dimensions_agree :
  forall X d,
  lsx_ok X -> reach X d -> consistent d.
Proof. exact reach_consistent. Qed.
Print Assumptions C32_dimensions_agree.

(* C32: so after every accepted assignment of operators, whatever the model was before. *)
Theorem C32_assignment :
  forall X args d d',
  (forall s, m_solver d = Some s -> winv X s) -> (m_frozen d = true -> m_solver d = None) -> Forall valid_arg args ->
  set_operators args d = (d', Ok tt) -> consistent d'.
Proof. exact C32_accepts. Qed.
Print Assumptions C32_assignment.

(* C32: two operators without entries of the same class raise ValueError. *)
Theorem C32_duplicates_rejected :
  forall args d ops,
  resolve false args = (existsb takes_input ops, Ok ops) -> (exists i j o o', i < j /\ nth_error ops i = Some o /\ nth_error ops j = Some o' /\
  mo_ent o = None /\ mo_ent o' = None /\ mo_cls o = mo_cls o') -> snd (set_operators args d) = Err ValueError.
Proof. exact set_operators_dup. Qed.
Print Assumptions C32_duplicates_rejected.

(* C32: a rejected assignment keeps the operators, their roles, the input dimension and the solver. *)
Theorem C32_rejected_assignment :
  forall args d d' e,
  set_operators args d = (d', Err e) -> m_ops d' = m_ops d /\ m_infer d' = m_infer d /\ m_known d' = m_known d /\ m_m d' = m_m d /\ m_solver d' = m_solver d.
Proof. exact set_operators_err. Qed.
Print Assumptions C32_rejected_assignment.

(* C32, false: a rejected assignment keeps everything. It may change whether the model expects inputs. *)
Theorem C32_rejected_assignment_refuted :
  exists X d args d' e, lsx_ok X /\ reach X d /\ Forall valid_arg args /\ set_operators args d = (d', Err e) /\ ~ consistent d'.
Proof. exact failed_assignment. Qed.
Print Assumptions C32_rejected_assignment_refuted.

(* C32, false: dimensions agree after a refit() that follows a failing fit(). It uses the data of the fit before. *)
Theorem C32_refit_after_error_refuted :
  exists X d states lhs d1 e d2, lsx_ok X /\ reach X d /\ good_arr states /\ good_arr lhs /\
  fit X d states lhs None = (d1, Err e) /\ refit X d1 = (d2, Ok tt) /\ ~ consistent d2.
Proof. exact refit_after_error. Qed.
Print Assumptions C32_refit_after_error_refuted.

(* C32: fit() without inputs raises if some operator takes inputs. *)
Theorem C32_fit_demands_inputs :
  forall X d states lhs,
  lsx_ok X -> reach X d -> m_frozen d = false -> m_intrusive d = false -> m_hasin d = true -> exists d' e, fit X d states lhs None = (d', Err e).
Proof. exact C32_needs. Qed.
Print Assumptions C32_fit_demands_inputs.

(* C32: inputs are ignored if no operator takes inputs. *)
Theorem C32_fit_ignores_inputs :
  forall X d states lhs u,
  lsx_ok X -> reach X d -> m_hasin d = false -> fit X d states lhs u = fit X d states lhs None.
Proof. exact C32_ignores. Qed.
Print Assumptions C32_fit_ignores_inputs.

(* C32: rhs without an input raises if some operator takes inputs. *)
Theorem C32_rhs_demands_inputs :
  forall X d q,
  lsx_ok X -> reach X d -> m_hasin d = true -> exists e, rhs d q None = Err e.
Proof. exact C32_rhs_needs. Qed.
Print Assumptions C32_rhs_demands_inputs.

(* C32: and ignores it if none does. *)
Theorem C32_rhs_ignores_inputs :
  forall X d q u,
  lsx_ok X -> reach X d -> m_hasin d = false -> rhs d q u = rhs d q None.
Proof. exact C32_rhs_ignores. Qed.
Print Assumptions C32_rhs_ignores_inputs.

(* C32: the "model not trained" check passes exactly when every operator has entries. *)
Theorem C32_trained_iff_entries :
  forall X d,
  lsx_ok X -> reach X d -> (check_trained d = Ok tt <-> forall o, In o (m_ops d) -> mo_ent o <> None).
Proof. exact C32_trained_check. Qed.
Print Assumptions C32_trained_iff_entries.

(* C32, false: a model can be fitted once it has operators to learn. One whose operators all had entries lost its solver, and fit() raises. *)
Theorem C32_solver_lost_refuted :
  exists X d args d', lsx_ok X /\ reach X d /\ Forall valid_arg args /\ set_operators args d = (d', Ok tt) /\ m_infer d' <> [] /\
  forall states lhs, exists d'' e, fit X d' states lhs None = (d'', Err e).
Proof. exact no_solver. Qed.
Print Assumptions C32_solver_lost_refuted.

(* C55: equal means same class, same dimensions and the same operators up to order. *)
Theorem C55_equality :
  forall a b,
  model_eqb a b = true <->
  m_kind a = m_kind b /\ m_frozen a = m_frozen b /\ m_r a = m_r b /\ m_m a = m_m b /\ Permutation (m_ops a) (m_ops b).
Proof. exact model_eq_iff. Qed.
Print Assumptions C55_equality.

(* C55 *)
Theorem C55_reflexive :
  forall a,
  model_eqb a a = true.
Proof. exact model_eq_refl. Qed.
Print Assumptions C55_reflexive.

(* C55 *)
Theorem C55_symmetric :
  forall a b,
  model_eqb a b = model_eqb b a.
Proof. exact model_eq_sym. Qed.
Print Assumptions C55_symmetric.

(* C55 *)
Theorem C55_transitive :
  forall a b c,
  model_eqb a b = true -> model_eqb b c = true -> model_eqb a c = true.
Proof. exact model_eq_trans. Qed.
Print Assumptions C55_transitive.

(* C55: the order of the operators does not matter. *)
Theorem C55_reordering :
  forall d l,
  Permutation l (m_ops d) -> model_eqb (with_ops l d) d = true.
Proof. exact model_eq_reorder. Qed.
Print Assumptions C55_reordering.

(* C55: the copy of a newly made model is the same model. *)
Theorem C55_copy_of_new_model :
  forall k fr args a d,
  Forall valid_arg args -> mk_model k fr args a = Ok d -> copy_model d = Ok d.
Proof. exact copy_fresh. Qed.
Print Assumptions C55_copy_of_new_model.

(* C55: the copy of a trained model is equal and has the same right-hand side. *)
Theorem C55_copy_of_trained_model :
  forall X d,
  lsx_ok X -> reach X d -> check_trained d = Ok tt -> exists d', copy_model d = Ok d' /\ model_eqb d' d = true /\ m_ops d' = m_ops d /\
  check_trained d' = Ok tt /\ forall q u, rhs d' q u = rhs d q u.
Proof. exact C55_copy. Qed.
Print Assumptions C55_copy_of_trained_model.

(* C55, false: the copy behaves as the original. The copy of a fitted model no longer knows which operators were learned. *)
Theorem C55_copy_forgets_refuted :
  exists X d d', lsx_ok X /\ reach X d /\ m_infer d <> [] /\ copy_model d = Ok d' /\ model_eqb d d' = true /\
  (forall s l u, fit X d' s l u = (d', Ok tt)) /\ (exists O, operator_matrix d = Ok O) /\ operator_matrix d' = Err ValueError.
Proof. exact copy_forgets. Qed.
Print Assumptions C55_copy_forgets_refuted.

(* C55, false: the copy is always equal. A state_dimension set by hand is lost. *)
Theorem C55_copy_dimension_refuted :
  exists X d d', lsx_ok X /\ reach X d /\ copy_model d = Ok d' /\ model_eqb d d' = false.
Proof. exact copy_loses_dimension. Qed.
Print Assumptions C55_copy_dimension_refuted.

(* C59: (W'V) rhs_reduced(q, u) = W' rhs(V q, u) for the projected model; same class and operators, state dimension r. *)
Theorem C59_galerkin_commutes :
  forall X solve junk d d' n r Vr Wr,
  trained X d n -> solve_spec solve -> (forall k, length (junk k) = k) -> 0 < r -> is_mat n r Vr -> is_mat n r (testbasis Vr Wr) ->
  matmul (mT (testbasis Vr Wr)) Vr = eye r \/ allclose (matmul (mT (testbasis Vr Wr)) Vr) (eye r) = false ->
  galerkin_model solve junk d Vr Wr = Ok d' ->
  m_kind d' = m_kind d /\ map mo_cls (m_ops d') = map mo_cls (m_ops d) /\ m_r d' = Some r /\ m_m d' = m_m d /\ check_trained d' = Ok tt /\
  forall q u, is_vec r q -> input_for d u -> exists y z,
    rhs d (V (matvec Vr q)) (option_map V u) = Ok (V y) /\ rhs d' (V q) (option_map V u) = Ok (V z) /\ is_vec r z /\
    matvec (matmul (mT (testbasis Vr Wr)) Vr) z = matvec (mT (testbasis Vr Wr)) y.
Proof. exact C59_rhs. Qed.
Print Assumptions C59_galerkin_commutes.

(* C59: the projection exists if W'V = I. *)
Theorem C59_galerkin_defined :
  forall X solve junk d n r Vr Wr,
  trained X d n -> solve_spec solve -> (forall k, length (junk k) = k) -> 0 < r -> is_mat n r Vr -> is_mat n r (testbasis Vr Wr) ->
  matmul (mT (testbasis Vr Wr)) Vr = eye r ->
  (forall o dg H, In o (m_ops d) -> mo_ent o = Some (OPoly dg H) -> newton_guard dg n) -> exists d', galerkin_model solve junk d Vr Wr = Ok d'.
Proof. exact C59_def. Qed.
Print Assumptions C59_galerkin_defined.

(* ---- the hypotheses are met ---- *)
Example C27_example : lsx_ok X0 /\ reach X0 dK /\ m_intrusive dK = false /\ good_arr (V [1]%R) /\ good_arr (V [5]%R) /\ valid_in None /\
  fit X0 dK (V [1]%R) (V [5]%R) None = (dK1, Ok tt) /\ operator_matrix dK1 = Ok [[2]]%R /\ reach X0 dK1 /\ m_intrusive dK1 = false /\ check_trained dK1 = Ok tt /\ refit X0 dK1 = (dK1, Ok tt).
Proof. split; [exact X0_ok|]. split; [exact dK_reach|]. split; auto. split; [cbn; lia|]. split; [cbn; lia|]. split; [exact I|]. split; [exact dK1_fit|]. split; [reflexivity|].
  split; [exact dK1_reach|]. split; auto. split; auto. unfold refit. cbn [m_intrusive m_solver dK1]. rewrite solve12. reflexivity. Qed.
(* one candidate: the known operator kept, another constant *)
Example C28_example : m_solver dK = Some new_plain /\ penalty new_plain 1 = Some (fun _ _ => 0%R) /\ candidate 1 0 dK1 [knw (OLin [[3]]%R); knw (OConst [7]%R)] /\
  tuned X0 (V [1]%R) (V [5]%R) None dK1 /\ refit X0 dK1 = (dK1, Ok tt).
Proof. split; auto. split; auto. split. { split; auto. split. { intros i [<-|[]]. reflexivity. } intros i [<-|[]]. exists (knw (OConst [2]%R)), (OConst [7]%R). repeat split. }
  split; [|apply C27_example]. apply (tn_fit X0 _ _ _ dK); [exact dK_reach|auto|exact dK1_fit]. Qed.
Example C29_example : trained X0 dK1 1 /\ input_for dK1 None /\ is_vec 1 [4]%R /\ rhs dK1 (V [4]%R) None = Ok (V [14]%R) /\ model_jacobian (fun k => repeat 0%R k) dK1 [4]%R None = Ok [[3]]%R.
Proof. split; [split; [exact X0_ok|split; [exact dK1_reach|split; reflexivity]]|]. split; [discriminate|]. split; [reflexivity|]. split; cbn; [do 3 f_equal; ring|do 3 f_equal; ring]. Qed.
Example C30_example : trained X0 dK1 1 /\ enough_inputs dK1 None 3 /\ predict dK1 (V [4]%R) (Z.of_nat 3) None = Ok [[4; 0 + 3 * 4 + 2; 0 + 3 * (0 + 3 * 4 + 2) + 2]]%R.
Proof. split; [apply C29_example|]. split; [discriminate|]. reflexivity. Qed.
Example C31_example : trajectories 2 [3; 2] [[[1; 2; 3]; [4; 5; 6]]; [[7; 8]; [9; 10]]]%R /\ inputs2 1 [3; 2] [M [[1; 1]]; M [[2; 2; 2]]]%R /\ inputs1 [3; 2] [V [1; 1]; V [2; 2; 2]]%R /\
  stack_trajectories [[[1; 2; 3]; [4; 5; 6]]; [[7; 8]; [9; 10]]]%R (Some [M [[1; 1]]; M [[2; 2; 2]]]%R) = Ok ([[1; 2; 7]; [4; 5; 9]], [[2; 3; 8]; [5; 6; 10]], Some (M [[1; 1; 2]]))%R.
Proof. split; [split; [constructor; [split; repeat constructor|constructor; [split; repeat constructor|constructor]]|split; [repeat constructor|discriminate]]|].
  split. { constructor; [exists [[1; 1]]%R, 2; split; [reflexivity|split; [split; repeat constructor|cbn; lia]]|]. constructor; [|constructor]. exists [[2; 2; 2]]%R, 3. split; [reflexivity|split; [split; repeat constructor|cbn; lia]]. }
  split. { constructor; [exists [1; 1]%R; split; [reflexivity|cbn; lia]|]. constructor; [|constructor]. exists [2; 2; 2]%R. split; [reflexivity|cbn; lia]. }
  reflexivity. Qed.
(* the discrete model of C29_example is reached by a fit, dA1 by another *)
Example C32_example : reach X0 dK1 /\ reach X0 dA1 /\ check_trained dA1 = Ok tt /\ check_trained dA <> Ok tt /\
  resolve false [AStr "A"; AStr "A"]%string = (existsb takes_input [unk CLin; unk CLin], Ok [unk CLin; unk CLin]).
Proof. split; [exact dK1_reach|]. split; [exact dA1_reach|]. split; [reflexivity|]. split; [discriminate|reflexivity]. Qed.
Definition dG : model := {| m_kind := KContinuous; m_frozen := false; m_ops := [knw (OLin [[1; 2]; [3; 4]]%R); knw (OInp [[5]; [6]]%R)]; m_infer := []; m_known := [0; 1]; m_hasin := true; m_r := Some 2; m_m := Some 1;
  m_intrusive := true; m_solver := None |}.
Lemma dG_reach : reach X0 dG.
Proof. apply (reach_new X0 KContinuous false [AOp (knw (OLin [[1; 2]; [3; 4]]%R)); AOp (knw (OInp [[5]; [6]]%R))] SNone); [|exact I|reflexivity].
  constructor; [|constructor; [|constructor]]; (apply (knw_valid 2 1); [lia|lia|split; repeat constructor]). Qed.
Example C59_example : trained X0 dG 2 /\ is_mat 2 1 [[1]; [0]]%R /\ matmul (mT (testbasis [[1]; [0]]%R None)) [[1]; [0]]%R = eye 1 /\ input_for dG (Some [1]%R) /\
  rhs dG (V [1; 1]%R) (Some (V [2]%R)) = Ok (V [13; 19]%R).
Proof. split; [split; [exact X0_ok|split; [exact dG_reach|split; reflexivity]]|]. split; [split; repeat constructor|]. split; [cbn; do 2 f_equal; ring|].
  split; [intros _; exists 1, [1]%R; auto|]. cbn. do 2 f_equal. f_equal; [ring|]. f_equal. ring. Qed.
Example C55_example : exists d, mk_model KDiscrete false [AStr "c"; AOp (knw (OLin [[3]]%R))]%string SNone = Ok d /\ model_eqb dK d = true /\ m_ops d <> m_ops dK.
Proof. eexists. split; [reflexivity|]. split; [|discriminate]. apply model_eq_iff. repeat (split; [reflexivity|]). constructor. Qed.
