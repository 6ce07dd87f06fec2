(* Prop_Requires.v -- property C54: methods that require training. *)
From Coq Require Import ZArith Lia Lra List.
From Verif Require Import MonoEx ReqEx EntriesModel.
#[local] Open Scope nat_scope.

(* C54: whatever is assigned to the regularizer of a new solver, without a call of fit() every marked method of every solver class raises AttributeError. *)
Theorem C54_solver_before_fit :
  forall X s l O,
  new_solver s -> ~ fit_called l -> Forall refuses (solver_calls X (srun X s l) O).
Proof. exact solver_unfitted. Qed.
Print Assumptions C54_solver_before_fit.

(* C54: solve() still does so if fit() was called but never returned, for every class except L2DecoupledSolver. *)
Theorem C54_solver_without_returned_fit :
  forall X s l,
  new_solver s -> (forall p, s <> LL2D p) -> ~ fit_returned X s l -> refuses (outcome (lsq_solve X (srun X s l))).
Proof. exact solver_no_return. Qed.
Print Assumptions C54_solver_without_returned_fit.

(* C54: once a fit() has returned, and if a regularizer is set, none of them raises AttributeError, whatever calls follow. *)
Theorem C54_solver_after_fit :
  forall X s l O,
  lsx_quiet X -> fit_returned X s l -> has_reg (srun X s l) -> Forall does_not_refuse (solver_calls X (srun X s l) O).
Proof. exact solver_fitted. Qed.
Print Assumptions C54_solver_after_fit.

(* C54, false for L2DecoupledSolver: after its only fit() has raised, solve() returns. *)
Theorem C54_decoupled_refuted :
  exists X s l O, lsx_ok X /\ new_solver s /\ fit_called l /\ ~ fit_returned X s l /\ lsq_solve X (srun X s l) = Ok O.
Proof. exact l2d_after_raise. Qed.
Print Assumptions C54_decoupled_refuted.

(* C54: a ScaleTransformer or ShiftScaleTransformer that has not learned what its options call for raises AttributeError, for all arguments. *)
Theorem C54_transformer_before_fit :
  forall t,
  single t -> unfit t -> forall a locs,
  transform t a = Err AttributeError /\ transform_ddts t a = Err AttributeError /\ inverse_transform t locs a = Err AttributeError.
Proof. exact unfit_single. Qed.
Print Assumptions C54_transformer_before_fit.

(* C54: pipelines and multi-transformers, however nested, with an unfit member never return a value. *)
Theorem C54_joined_before_fit :
  forall t,
  unfit t -> forall a locs, never (transform t a) /\ never (transform_ddts t a) /\ never (inverse_transform t locs a).
Proof. exact unfit_never. Qed.
Print Assumptions C54_joined_before_fit.

(* C54: a multi-transformer with a member of unknown size raises AttributeError. *)
Theorem C54_multi_before_fit :
  forall l,
  In None (variable_sizes l) -> forall a locs,
  transform (TMulti l) a = Err AttributeError /\ transform_ddts (TMulti l) a = Err AttributeError /\ inverse_transform (TMulti l) locs a = Err AttributeError.
Proof. exact unsized_multi. Qed.
Print Assumptions C54_multi_before_fit.

(* C54: so do all transformers as constructed, if they have something to learn. *)
Theorem C54_new_transformers :
  (forall cent sc byrow nm t, mk_ss cent sc byrow nm = Ok t -> (cent = true \/ sc <> None) -> unfit t /\ single t) /\
  (forall x nm t, mk_scale (Sc x) nm = Ok t -> unfit t /\ single t) /\
  (forall l nm t, mk_pipe (PList l) nm = Ok t -> (exists m, In m l /\ unfit m) -> unfit t).
Proof. exact new_transformers. Qed.
Print Assumptions C54_new_transformers.

(* C54: after fit() has returned the three methods return on all arrays with as many rows. *)
Theorem C54_transformer_after_fit :
  forall t a t',
  built t -> PreModel.fit t a = Ok t' -> ~ unfit t' /\
  forall q, alen q = alen a -> (exists b, transform t' q = Ok b) /\ (exists b, transform_ddts t' q = Ok b) /\ (exists b, inverse_transform t' None q = Ok b).
Proof. exact fitted_runs. Qed.
Print Assumptions C54_transformer_after_fit.

(* C54: a PODBasis without a call of fit() raises AttributeError, whatever dimensions were requested. *)
Theorem C54_pod_before_fit :
  forall X a mx sv W nm p os,
  pod_init X a mx sv W nm = Ok p -> existsb is_fit os = false ->
  forall x q locs rel, Forall refuses (basis_calls (BPod (pod_history X p os)) x q locs rel).
Proof. exact pod_unfitted. Qed.
Print Assumptions C54_pod_before_fit.

(* C54: once a fit() has returned it never does again, whatever calls follow, raising or not. *)
Theorem C54_pod_after_fit :
  forall X p os st os' p1,
  pod_step X (OFit st) (pod_history X p os) = (p1, None) ->
  forall x q locs rel, Forall does_not_refuse (basis_calls (BPod (pod_history X p (os ++ OFit st :: os'))) x q locs rel).
Proof. exact pod_fitted. Qed.
Print Assumptions C54_pod_after_fit.

(* C54: an operator whose entries were never set, or were deleted after the last time they were set, raises AttributeError. *)
Theorem C54_operator_without_entries :
  forall junk c ks s answers,
  run junk c cleared ks = (s, answers) -> (forall i, set_returned ks answers i -> exists j, i < j /\ deletes ks j) ->
  forall q u q1 u1, snd (step junk c s (Apply q u)) = AArr (Err AttributeError) /\ snd (step junk c s (Jacobian q1 u1)) = AJac (Err AttributeError).
Proof. exact op_unset. Qed.
Print Assumptions C54_operator_without_entries.

(* C54: an operator whose entries were set and not deleted since does not. *)
Theorem C54_operator_with_entries :
  forall junk c ks s answers,
  run junk c cleared ks = (s, answers) -> (exists i, set_returned ks answers i /\ forall j, i < j -> ~ deletes ks j) ->
  forall q u q1 u1, snd (step junk c s (Apply q u)) <> AArr (Err AttributeError) /\ snd (step junk c s (Jacobian q1 u1)) <> AJac (Err AttributeError).
Proof. exact op_set_runs. Qed.
Print Assumptions C54_operator_with_entries.

(* C54: parametric operators without entries raise AttributeError, and new ones have none. *)
Theorem C54_parametric_without_entries :
  (forall a mu, a_entries a = None -> snd (aff_evaluate a mu) = Err AttributeError) /\
  (forall solve junk a Vr Wr, a_entries a = None -> aff_galerkin solve junk a Vr Wr = Err AttributeError) /\
  (forall t mu, i_entries t = None -> i_evaluate t mu = Err AttributeError) /\
  (forall c coeffs nt a, aff_init c coeffs nt = Ok a -> a_entries a = None) /\ (forall c ic, i_entries (i_new c ic) = None).
Proof. exact param_unset. Qed.
Print Assumptions C54_parametric_without_entries.

(* C54: an affine operator with entries does not. *)
Theorem C54_affine_with_entries :
  forall a Es a' mu,
  aff_set a Es = Ok a' -> snd (aff_evaluate a' mu) <> Err AttributeError.
Proof. exact aff_set_runs. Qed.
Print Assumptions C54_affine_with_entries.

(* C54: a model with an operator without entries raises AttributeError in predict() and operator_matrix, and rhs() and jacobian() return nothing. *)
Theorem C54_model_without_entries :
  forall d,
  lacks_entries d ->
  (forall q0 n inputs, Forall refuses (model_calls d q0 n inputs)) /\
  (forall junk q u q1 u1, Forall (fun x => exists e, x = Err e) (model_evals junk d q u q1 u1)).
Proof. exact model_lacks. Qed.
Print Assumptions C54_model_without_entries.

(* C54: a model whose operators all have entries raises no AttributeError. *)
Theorem C54_model_complete :
  forall X d,
  lsx_ok X -> reach X d -> ~ lacks_entries d ->
  (forall q0 n inputs, Forall does_not_refuse (model_calls d q0 n inputs)) /\
  (forall junk q u q1 u1, Forall does_not_refuse (model_evals junk d q u q1 u1)).
Proof. exact model_complete. Qed.
Print Assumptions C54_model_complete.

(* C54: fit() leaves no operator without entries. *)
Theorem C54_model_after_fit :
  forall X d states lhs inputs d',
  lsx_ok X -> reach X d -> m_intrusive d = false -> good_arr states -> good_arr lhs -> valid_in inputs ->
  MonoModel.fit X d states lhs inputs = (d', Ok tt) -> ~ lacks_entries d'.
Proof. exact model_fitted. Qed.
Print Assumptions C54_model_after_fit.

(* Cases: a Tikhonov solver with a regularizer, before and after a fit; a standard scaler; a PODBasis; a model. *)
Example C54_solver_example :
  let s := LTik {| tk_reg := None; tk_method := MLstsq; tk_opts := no_opts; tk_data := None; tk_pre := None |} in
  let l := [SReg (GTik (Some (M [[1%R]])))] in
  new_solver s /\ ~ fit_called l /\ has_reg (srun Xs s l) /\ fit_returned Xs s (l ++ [SFit (M [[1%R]]) (M [[1%R]])]) /\ has_reg (srun Xs s (l ++ [SFit (M [[1%R]]) (M [[1%R]])])).
Proof. cbn zeta. split; [cbn; auto|]. split; [intros (D & Z & [H|[]]); discriminate|]. split; [cbn; discriminate|]. split; [|cbn; discriminate].
  cbn [app fit_returned]. right. left. eexists _, _. split; reflexivity. Qed.
Example C54_scipy_example : lsx_quiet Xs.
Proof. split; [|split]; cbn; try discriminate.
  - intros o A B. unfold MonoFinal.lst0. destruct (MonoFinal.mat_eq_dec A _); [|discriminate]. destruct (MonoFinal.mat_eq_dec B _); discriminate.
  - intros A. destruct (MonoFinal.mat_eq_dec A _); discriminate. Qed.
Example C54_transformer_example : exists t p, mk_ss true (Some Standard) false None = Ok t /\ unfit t /\ mk_pipe (PList [mk_null None; t]) None = Ok p /\ unfit p.
Proof. eexists _, _. split; [reflexivity|]. split; [cbn; auto|]. split; [reflexivity|]. cbn. auto. Qed.
Example C54_fitted_example : exists t t', mk_ss true None false None = Ok t /\ built t /\ PreModel.fit t (M [[1%R; 3%R]; [5%R; 6%R]]) = Ok t'.
Proof. eexists _, _. split; [reflexivity|]. split; [cbn; discriminate|]. reflexivity. Qed.
Example C54_operator_example junk : let ks := [DelEntries; Apply (V [1%R]) (V [])] in
  snd (run junk CLin cleared ks) = [AUnit (Ok tt); AArr (Err AttributeError)] /\ forall i, ~ set_returned ks (snd (run junk CLin cleared ks)) i.
Proof. cbn zeta. split; [reflexivity|]. intros [|[|i]] (x & H & _); try discriminate. cbn in H. destruct i; discriminate. Qed.
Example C54_model_example : lsx_ok X0 /\ reach X0 dA /\ lacks_entries dA /\ reach X0 dA1 /\ ~ lacks_entries dA1.
Proof. split; [exact MonoFinal.X0_ok|]. split; [exact dA_reach|]. split; [eexists; split; [left; reflexivity|reflexivity]|]. split; [exact dA1_reach|].
  intros (o & H & E). cbn in H. destruct H as [<-|[]]. discriminate. Qed.
