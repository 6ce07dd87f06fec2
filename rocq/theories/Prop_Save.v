(* Prop_Save.v -- properties C45 and C46: saving and loading. *)
From Coq Require Import String ZArith Reals Lra Lia List.
From Verif Require Import PreFinal PodRank PodFinal PodHist SpecMono MonoFinal MonoEx ParaEx ParaInv SavePost SpecSave.
#[local] Open Scope string_scope.
#[local] Open Scope nat_scope.
#[local] Open Scope list_scope.

(* C45: saving to an existing file with overwrite=False raises FileExistsError and leaves every file as it was, whatever the object and the world. *)
Theorem C45_refuses :
  forall I w f path x,
  is_file f path -> save I w f path (Some false) x = (f, Raised FileExistsError).
Proof. exact save_refuses. Qed.
Print Assumptions C45_refuses.

(* C45: the same without the argument, for every class but OperatorPosterior. *)
Theorem C45_default_refuses :
  forall I w f path x,
  is_file f path -> (forall p, x <> SvPost p) -> save I w f path None x = (f, Raised FileExistsError).
Proof. exact save_default. Qed.
Print Assumptions C45_default_refuses.

(* C45: the same in terms of permission given by the caller or by the default. *)
Theorem C45_forbidden :
  forall I f c,
  is_file f (c_path c) -> ~ permitted c -> srun1 I f c = (f, Raised FileExistsError).
Proof. exact save_forbidden. Qed.
Print Assumptions C45_forbidden.

(* C45: over any history of saves (returning, raising or killed), a file that no call had permission to overwrite holds what it held. *)
Theorem C45_history :
  forall I l,
  forall f q, is_file f q -> (forall c, In c l -> c_path c = q -> ~ permitted c) -> untouched f (after_saves I f l) q.
Proof. exact save_history. Qed.
Print Assumptions C45_history.

(* C45: a save touches no other file, even if it raises or is killed. *)
Theorem C45_other_files :
  forall I w f path ow x q,
  q <> path -> untouched f (fst (save I w f path ow x)) q.
Proof. exact save_other. Qed.
Print Assumptions C45_other_files.

(* C45: over any history, a path that no call names is not touched, whether there is a file or not. *)
Theorem C45_elsewhere :
  forall I l,
  forall f q, (forall c, In c l -> c_path c <> q) -> untouched f (after_saves I f l) q.
Proof. exact save_elsewhere. Qed.
Print Assumptions C45_elsewhere.

(* C45: what a save that returns leaves in the file depends on the object only: not on the previous contents, the path, the world or the argument. *)
Theorem C45_contents :
  forall I x w1 w2 f1 f2 p1 p2 o1 o2 g1 g2,
  save I w1 f1 p1 o1 x = (g1, Done) -> save I w2 f2 p2 o2 x = (g2, Done) -> g1 p1 = g2 p2.
Proof. exact save_contents. Qed.
Print Assumptions C45_contents.

(* C45: with overwrite=True an undisturbed save replaces the file, if the object can be saved to a new path. *)
Theorem C45_overwrites :
  forall I f path x,
  saves I x -> is_file f path -> exists f', save I calm f path (Some true) x = (f', Done).
Proof. exact save_overwrites. Qed.
Print Assumptions C45_overwrites.

(* C45: loading a path without a file raises FileNotFoundError. *)
Theorem C45_load_missing :
  forall {A} (body : node -> res A) f path,
  ~ is_file f path -> load_file f path body = Err FileNotFoundError.
Proof. exact @load_missing. Qed.
Print Assumptions C45_load_missing.

(* C45: whatever load() trips over in a readable file, it raises LoadfileFormatError. *)
Theorem C45_load_format :
  forall {A} (body : node -> res A) f path g e,
  f path = Some (File (Some g)) -> body g = Err e -> load_file f path body = Err LoadfileFormatError.
Proof. exact @load_format. Qed.
Print Assumptions C45_load_format.

(* C45, false for OperatorPosterior: save() without the argument overwrites an existing file. *)
Theorem C45_posterior_default_refuted :
  forall I w f path p,
  w_open w = true -> w_kill w = None -> is_file f path -> saves I (SvPost p) ->
  exists f', save I w f path None (SvPost p) = (f', Done) /\ exists g, f' path = Some (File (Some g)).
Proof. exact post_overwrites. Qed.
Print Assumptions C45_posterior_default_refuted.

(* C45, false: with overwrite=True the old contents are lost if the process is killed.  Here, saving an operator, the file that is left cannot be opened. *)
Theorem C45_killed_refuted :
  forall I f path o,
  is_file f path -> exists w f', save I w f path (Some true) (SvOp o) = (f', Killed) /\
  (forall A (body : node -> res A), load_file f' path body = Err OtherError).
Proof. exact killed_any. Qed.
Print Assumptions C45_killed_refuted.

(* C45, false: with overwrite=True the old contents are lost if the save raises.  Here, a TruncatedSVDSolver with num_svdmodes=None; the file that is left cannot be loaded. *)
Theorem C45_raising_refuted :
  forall I f path p,
  is_file f path -> ts_modes p = None ->
  exists f' e, save I calm f path (Some true) (SvSolver (LTsvd p)) = (f', Raised e) /\ load_file f' path (lsq_load KTsvd) = Err LoadfileFormatError.
Proof. exact raising_any. Qed.
Print Assumptions C45_raising_refuted.

(* C46: a ShiftTransformer, ScaleTransformer, ShiftScaleTransformer or NullTransformer, in any reachable state, comes back as it was. *)
Theorem C46_transformer :
  forall I t,
  plain_tf t -> comes_back I (SvTf t) (tf_load1 (tf_class t)) t.
Proof. exact leaf_back. Qed.
Print Assumptions C46_transformer.

(* C46: a TransformerPipeline with a name comes back as it was. *)
Theorem C46_pipeline :
  forall I l nm,
  Forall plain_tf l -> dims_agree l ->
  comes_back I (SvTf (TPipe l (Some nm))) (pipe_load (map tf_class l)) (TPipe l (Some nm)).
Proof. exact pipe_back. Qed.
Print Assumptions C46_pipeline.

(* C46: a TransformerMulti comes back as it was. *)
Theorem C46_transformer_multi :
  forall I l c,
  l <> [] -> Forall plain_tf l -> Forall (fun t => tf_name t <> None) l ->
  c = Each (map tf_class l) \/ (exists k, c = One k /\ Forall (fun t => tf_class t = k) l) ->
  comes_back I (SvTf (TMulti l)) (tmulti_load c) (TMulti l).
Proof. exact multi_back. Qed.
Print Assumptions C46_transformer_multi.

(* C46, false: a ScaleTransformer whose scaler is an array of length one comes back with a number. *)
Theorem C46_length_one_scaler_refuted :
  forall I x nm,
  keeps_name nm -> x <> 0%R ->
  comes_back I (SvTf (TScale (Vc [x]) (Some 1) nm)) (tf_load1 KScale) (TScale (Sc x) (Some 1) nm).
Proof. exact scale1_back. Qed.
Print Assumptions C46_length_one_scaler_refuted.

(* C46, false: the name "None" comes back as no name. *)
Theorem C46_name_None_refuted :
  forall I ref,
  comes_back I (SvTf (TShift ref (Some "None"))) (tf_load1 KShift) (TShift ref None).
Proof. exact none_back. Qed.
Print Assumptions C46_name_None_refuted.

(* C46, false: a TransformerPipeline without a name comes back with the name "None". *)
Theorem C46_pipeline_name_refuted :
  forall I l,
  Forall plain_tf l -> dims_agree l ->
  comes_back I (SvTf (TPipe l None)) (pipe_load (map tf_class l)) (TPipe l (Some "None")).
Proof. exact pipe_none_back. Qed.
Print Assumptions C46_pipeline_name_refuted.

(* C46, false: a ShiftScaleTransformer with scale_ set and shift_ not set cannot be saved. *)
Theorem C46_half_scaled_refuted :
  forall I s,
  ss_scaling s <> None -> ss_scale s <> None -> ss_shift s = None -> cannot_be_saved I (SvTf (TSS s)).
Proof. exact half_scaled. Qed.
Print Assumptions C46_half_scaled_refuted.

(* C46, false: pipelines inside pipelines or inside TransformerMulti are saved, but cannot be loaded. *)
Theorem C46_nested_refuted :
  forall I l nm' nm,
  Forall plain_tf l -> dims_agree l ->
  cannot_be_loaded I (SvTf (TPipe [TPipe l nm'] nm)) (pipe_load [KPipe]) /\
  cannot_be_loaded I (SvTf (TMulti [TPipe l nm'])) (tmulti_load (Each [KPipe])).
Proof. exact nested_not. Qed.
Print Assumptions C46_nested_refuted.

(* C46: a LinearBasis comes back as it was. *)
Theorem C46_linear_basis :
  forall I b,
  new_lb b -> checkable b -> comes_back I (SvBasis (BLin b)) lb_load b.
Proof. exact linear_back. Qed.
Print Assumptions C46_linear_basis.

(* C46: a fitted PODBasis comes back equal in everything but the SVD solver, which is the default one. *)
Theorem C46_pod_basis :
  forall I X p,
  fitted_pod X p -> exists q, comes_back I (SvBasis (BPod p)) (pod_load X None) q /\ same_pod p q /\ p_solver q = SDense.
Proof. exact fitted_back. Qed.
Print Assumptions C46_pod_basis.

(* C46: with the default SVD solver it comes back as it was. *)
Theorem C46_pod_basis_dense :
  forall I X p p0,
  fitted_pod X p -> pod_init X (by_num 1) None SDense (p_weights p) None = Ok p0 ->
  p_solver p = SDense -> p_est p = false -> p_sqrtw p = p_sqrtw p0 -> comes_back I (SvBasis (BPod p)) (pod_load X None) p.
Proof. exact fitted_dense_back. Qed.
Print Assumptions C46_pod_basis_dense.

(* C46: a PODBasis that has not been fitted comes back as made with the default SVD solver. *)
Theorem C46_pod_basis_new :
  forall I X a mx sv W nm p q,
  nm <> Some "" -> pod_init X a mx sv W nm = Ok p -> pod_init X a mx SDense W nm = Ok q ->
  comes_back I (SvBasis (BPod p)) (pod_load X None) q.
Proof. exact pod_new_back. Qed.
Print Assumptions C46_pod_basis_new.

(* C46: the members of a BasisMulti come back. *)
Theorem C46_basis_multi :
  forall I X bs k,
  bs <> [] -> Forall (good_basis X) bs -> Forall (fun b => b_name b <> None) bs ->
  k = Each (map b_class bs) \/ (exists c, k = One c /\ Forall (fun b => b_class b = c) bs) ->
  exists cs, comes_back I (SvMulti bs) (bmulti_load X k) cs /\ Forall2 same_basis bs cs.
Proof. exact bmulti_back. Qed.
Print Assumptions C46_basis_multi.

(* C46: load(max_vectors=m) keeps the first m left vectors; with num_vectors the dimension is m. *)
Theorem C46_pod_max_vectors :
  forall I X p L n k m,
  fitted_pod X p -> p_left p = Some L -> is_mat n k L -> 0 < n -> ok_weight n (p_weights p) -> m <= k ->
  (forall z, p_crit p = CNum z -> (0 <= z)%Z) ->
  exists q, comes_back I (SvBasis (BPod p)) (pod_load X (Some (Z.of_nat m))) q /\ p_left q = Some (map (firstn m) L) /\
    (exists r, r <= m /\ keeps q r) /\ (forall z, p_crit p = CNum z -> p_r q = Some (Z.of_nat m)).
Proof. exact max_back. Qed.
Print Assumptions C46_pod_max_vectors.

(* C46, false: a LinearBasis with an empty name comes back without a name. *)
Theorem C46_basis_empty_name_refuted :
  forall I A W b,
  lb_init A W true (Some "") = Ok b -> exists b', comes_back I (SvBasis (BLin b)) lb_load b' /\ lb_name b' = None.
Proof. exact empty_name_back. Qed.
Print Assumptions C46_basis_empty_name_refuted.

(* C46, false: a reduced state dimension assigned by the user does not come back. *)
Theorem C46_pod_rank_refuted :
  forall I X p z p',
  fitted_pod X p -> set_r z p = (p', None) -> exists q, comes_back I (SvBasis (BPod p')) (pod_load X None) q /\ p_r q = p_r p.
Proof. exact rank_forgotten. Qed.
Print Assumptions C46_pod_rank_refuted.

(* C46, false: a PODBasis without singular values or right vectors (as from_svd can make) cannot be saved. *)
Theorem C46_pod_no_right_vectors_refuted :
  forall I p,
  p_left p <> None -> p_svals p = None \/ p_right p = None -> cannot_be_saved I (SvBasis (BPod p)).
Proof. exact pod_not_saved. Qed.
Print Assumptions C46_pod_no_right_vectors_refuted.

(* C46: an operator, with or without entries, comes back as it was. *)
Theorem C46_operator :
  forall I o,
  SpecMono.valid_op o -> comes_back I (SvOp o) (op_load (mo_cls o)) o.
Proof. exact op_back. Qed.
Print Assumptions C46_operator.

(* C46: the load() of another operator class raises LoadfileFormatError. *)
Theorem C46_operator_other_class :
  forall I o c,
  SpecMono.valid_op o -> c <> mo_cls o -> cannot_be_loaded I (SvOp o) (op_load c).
Proof. exact op_other. Qed.
Print Assumptions C46_operator_other_class.

(* C46: an affine operator comes back as it was, given the coefficients (functions cannot be saved). *)
Theorem C46_affine :
  forall I coeffs a,
  (forall p, coeffs <> CInt p) -> built_aff coeffs a -> sized_aff a -> comes_back I (SvAff a) (aff_load (a_cls a) coeffs) a.
Proof. exact aff_back. Qed.
Print Assumptions C46_affine.

(* C46, false: an affine operator with coefficients given as an integer cannot be loaded. *)
Theorem C46_affine_int_refuted :
  forall I p a,
  built_aff (CInt p) a -> sized_aff a -> a_pdim a <> None -> cannot_be_loaded I (SvAff a) (aff_load (a_cls a) (CInt p)).
Proof. exact aff_int_not. Qed.
Print Assumptions C46_affine_int_refuted.

(* C46: an interpolated operator without parameters comes back as it was. *)
Theorem C46_interpolated_new :
  forall X I c arg ic,
  match ic with Some C => finds I arg C | None => arg = None /\ si_attr I "NoneType" = None end ->
  comes_back I (SvItp (i_new c ic)) (itp_load X I c arg) (i_new c ic).
Proof. exact itp_new_back. Qed.
Print Assumptions C46_interpolated_new.

(* C46: an interpolated operator with parameters but no entries comes back as it was. *)
Theorem C46_interpolated_params :
  forall X I c arg ic ps t,
  match ic with Some C => finds I arg C | None => arg = None /\ si_attr I "NoneType" = None end ->
  i_set_params (i_new c ic) ps = Ok t -> comes_back I (SvItp t) (itp_load X I c arg) t.
Proof. exact itp_params_back. Qed.
Print Assumptions C46_interpolated_params.

(* C46: an interpolated operator with entries comes back as it was; by default interpolation, if scalar parameters are in order. *)
Theorem C46_interpolated :
  forall X I c arg ic C ps Es t,
  i_init (px_cubic X) (px_linnd X) c ps Es ic = Ok t -> sized_itp t -> i_iclass t = Some C -> finds I arg C ->
  (ic = None -> in_order t) -> comes_back I (SvItp t) (itp_load X I c arg) t.
Proof. exact itp_back. Qed.
Print Assumptions C46_interpolated.

(* C46: an interpolated operator whose class scipy.interpolate does not have cannot be loaded without passing that class. *)
Theorem C46_interpolated_unknown_class :
  forall X I C t,
  i_iclass t = Some C -> si_attr I (si_name I C) = None -> si_name I C <> "NoneType"%string -> cannot_be_loaded I (SvItp t) (itp_load X I (i_cls t) None).
Proof. exact itp_unknown_class. Qed.
Print Assumptions C46_interpolated_unknown_class.

(* C46, false: with default interpolation over scalar parameters out of order it cannot be loaded (scipy refuses such parameters). *)
Theorem C46_interpolated_unsorted_refuted :
  forall X I c arg xs ops t r m,
  (forall xs es, ~ strictly_inc xs -> px_cubic X (map PS xs) es = Err ValueError) ->
  i_init (px_cubic X) (px_linnd X) c (map PS xs) (map entries2 ops) None = Ok t -> 0 < r -> SpecParam.family r m c ops -> ~ strictly_inc xs -> finds I arg (px_cubic X) ->
  cannot_be_loaded I (SvItp t) (itp_load X I c arg).
Proof. exact itp_unsorted. Qed.
Print Assumptions C46_interpolated_unsorted_refuted.

(* C46: a least-squares solver of any class comes back as it was, after any history of fits and changes of the regularizer. *)
Theorem C46_solver :
  forall I X s l,
  made_solver s -> fits_returned X s l -> plain_regs (srun X s l) ->
  comes_back I (SvSolver (srun X s l)) (lsq_load (s_class s)) (srun X s l).
Proof. exact solver_back. Qed.
Print Assumptions C46_solver.

(* C46: the same for every history, raising fits included, of a solver that could be saved. *)
Theorem C46_solver_if_saved :
  forall I X s l,
  made_solver s -> loads_as I (SvSolver (srun X s l)) (lsq_load (s_class s)) (srun X s l).
Proof. exact solver_back_any. Qed.
Print Assumptions C46_solver_if_saved.

(* C46, false: a TruncatedSVDSolver with num_svdmodes=None cannot be saved. *)
Theorem C46_tsvd_none_refuted :
  forall I p,
  ts_modes p = None -> cannot_be_saved I (SvSolver (LTsvd p)).
Proof. exact modes_not_saved. Qed.
Print Assumptions C46_tsvd_none_refuted.

(* C46, false: a TikhonovDecoupledSolver with matrices of different shapes cannot be saved. *)
Theorem C46_tikhonov_shapes_refuted :
  forall I p Gs,
  td_reg p = Some Gs -> same_shapes Gs = false -> cannot_be_saved I (SvSolver (LTikD p)).
Proof. exact shapes_not_saved. Qed.
Print Assumptions C46_tikhonov_shapes_refuted.

(* C46, false: a TikhonovSolver whose first fit raised because of the regularizer cannot be saved. *)
Theorem C46_raising_fit_refuted :
  forall I X p D Z e,
  tk_pre p = None -> lsq_fit X (LTik p) D Z = (fst (lsq_fit X (LTik p) D Z), Err e) -> base_fit D Z <> Err e ->
  cannot_be_saved I (SvSolver (fst (lsq_fit X (LTik p) D Z))).
Proof. exact raising_not_saved. Qed.
Print Assumptions C46_raising_fit_refuted.

(* C46: a nonparametric model in any reachable state comes back with the same class, operators, roles and dimensions; it compares equal and evaluates alike. *)
Theorem C46_model :
  forall I X d,
  lsx_ok X -> reach X d -> positive_dims d -> exists d', loads_as I (SvModel d) (model_load (m_kind d) (m_frozen d)) d' /\
  same_model d d' /\ model_eqb d' d = true /\ evaluates_alike d d'.
Proof. exact model_back. Qed.
Print Assumptions C46_model.

(* C46: a nonparametric model in any reachable state can be saved if its solver can. *)
Theorem C46_model_saves :
  forall I X d,
  lsx_ok X -> reach X d -> (forall s, m_solver d = Some s -> saves I (SvSolver s)) -> saves I (SvModel d).
Proof. exact model_saved. Qed.
Print Assumptions C46_model_saves.

(* C46, false for training: a trained model comes back without a solver, and fit() and refit() do nothing. *)
Theorem C46_model_training_refuted :
  forall I X d,
  lsx_ok X -> reach X d -> positive_dims d -> check_trained d = Ok tt -> m_frozen d = false ->
  exists d', loads_as I (SvModel d) (model_load (m_kind d) (m_frozen d)) d' /\ m_solver d' = None /\
  (forall states lhs inputs, MonoModel.fit X d' states lhs inputs = (d', Ok tt)) /\ MonoModel.refit X d' = (d', Ok tt).
Proof. exact trained_back. Qed.
Print Assumptions C46_model_training_refuted.

(* C46, false: a solver other than a new PlainSolver does not come back with the model. *)
Theorem C46_model_solver_refuted :
  forall I X d s,
  lsx_ok X -> reach X d -> positive_dims d -> m_solver d = Some s -> s <> new_plain -> exists d', loads_as I (SvModel d) (model_load (m_kind d) (m_frozen d)) d' /\ m_solver d' <> Some s.
Proof. exact solver_lost. Qed.
Print Assumptions C46_model_solver_refuted.

(* C46: an interpolatory model with all entries set comes back with the same class, operators, roles and dimensions. *)
Theorem C46_interp_model :
  forall X I arg ic carg d p,
  passes I arg ic carg -> dims_of_ops (im_base d) ->
  (forall o, In o (pm_ops (im_base d)) -> exists t, o = PItp t /\ built_itp X I carg t /\ i_pdim t = Some p) ->
  exists d', comes_back I (SvInterp ic d) (imodel_load X I (pm_kind (im_base d)) arg) d' /\ same_imodel (im_base d) (im_base d') /\
    pm_p (im_base d') = Some p /\ pm_solver (im_base d') = None /\ im_sub d' = None.
Proof. exact imodel_back. Qed.
Print Assumptions C46_interp_model.

(* C46: training leaves each operator of an interpolatory model as the constructor would. *)
Theorem C46_interp_model_trained :
  forall X mus subs ell t t',
  reset_op X mus subs ell (PItp t) = (PItp t', Ok tt) ->
  exists Es, i_init (px_cubic X) (px_linnd X) (i_cls t) mus Es (i_iclass t) = Ok t'.
Proof. exact reset_built. Qed.
Print Assumptions C46_interp_model_trained.

(* C46: an OperatorPosterior comes back with the same means and covariances, and compares equal. *)
Theorem C46_posterior :
  forall I X means mats inv p,
  mvn_ok X -> post_init X means mats inv = Ok p ->
  exists p', comes_back I (SvPost p) (post_load X) p' /\ po_means p' = po_means p /\ po_covs p' = po_covs p /\ post_eqb p' p = true.
Proof. exact post_back. Qed.
Print Assumptions C46_posterior.

(* C46, false: a posterior made from precision matrices comes back as one made from covariances. *)
Theorem C46_posterior_precisions_refuted :
  forall I X means mats p,
  mvn_ok X -> post_init X means mats false = Ok p ->
  po_prec p = true /\ exists p', loads_as I (SvPost p) (post_load X) p' /\ po_prec p' = false.
Proof. exact post_forgets. Qed.
Print Assumptions C46_posterior_precisions_refuted.

(* ---- the hypotheses can be met ---- *)
Definition I0 : spi := {| si_name := fun _ => "C"; si_attr := fun s => if String.eqb s "C" then Some constC else None |}.
Definition f0 : fs := fun p => if String.eqb p "old" then Some (File (Some (Grp [] []))) else None.
Definition o3 : mop := knw (OLin [[3]]%R).
Lemma o3_valid : SpecMono.valid_op o3. Proof. apply (knw_valid 1 1); [lia|lia|]. split; repeat constructor. Qed.
(* two saves without permission, one killed, and one elsewhere; the file that is there is not lost *)
Example C45_example : is_file f0 "old" /\
  (forall c, In c [{| c_world := calm; c_path := "old"; c_ow := None; c_obj := SvOp o3 |}; {| c_world := {| w_open := true; w_kill := Some (1, true) |}; c_path := "new"; c_ow := Some true; c_obj := SvOp o3 |}] ->
     c_path c = "old" -> ~ permitted c) /\ saves I0 (SvOp o3).
Proof. split; [eexists; reflexivity|]. split; [|apply (C46_operator I0 o3 o3_valid)]. intros c [<-|[<-|[]]]; cbn; [discriminate|discriminate]. Qed.
(* transformers: assigned, fitted, joined *)
Definition s0 : ss := {| ss_cent := true; ss_scaling := Some Standard; ss_byrow := true; ss_name := Some "s"; ss_n := None; ss_mean := None; ss_scale := None; ss_shift := None |}.
Lemma s0_fit : exists s' b, ss_fit s0 (M [[0; 1]; [2; 5]]%R) = Ok (s', b) /\ ss_scale s' <> None /\ ss_shift s' <> None /\ ss_n s' = Some 2 /\ ss_name s' = Some "s".
Proof.
  assert (E : exists t' b, fit_transform (TSS s0) (M [[0; 1]; [2; 5]]%R) = Ok (t', b)).
  { apply (C03_total _ 2 2); [repeat constructor|lia|cbn; intros; split; congruence|]. cbn [ss_scaling ss_byrow ss_cent s0]. intros sc E. injection E as <-. cbn.
    intros v [<-|[<-|[]]]; unfold varies, vmean, lsum; cbn; eexists; eexists; (split; [left; reflexivity|]); (split; [right; left; reflexivity|]); lra. }
  destruct E as [t' [b E]]. unfold fit_transform in E. cbn [fit_from fit_prog] in E. destruct (ss_fit s0 (M [[0; 1]; [2; 5]]%R)) as [[s' b']|] eqn:F; [|exfalso; cbn [bind] in E; discriminate E]. exists s', b'. split; [auto|].
  clear E. unfold ss_fit in F. cbn [s0 ss_cent ss_scaling ss_byrow ss_name ss_mean] in F. destruct (mapM mean_nz _) as [mu|]; [|discriminate F]. cbn [bind] in F.
  destruct (PreModel.exec _ _) as [Y1|]; [|discriminate F]. cbn [bind] in F. destruct (ss_learn _ _ _) as [[[al be] p2]|]; [|discriminate F]. cbn [bind] in F. inversion F. cbn. repeat split; discriminate.
Qed.

Example C46_transformers : plain_tf (TShift [1; 2]%R (Some "x")) /\ plain_tf (TScale (Vc [3; 4]%R) (Some 2) None) /\ plain_tf (TNull None None) /\
  (exists s, plain_tf (TSS s) /\ ss_scale s <> None /\ dims_agree [TShift [1; 2]%R (Some "x"); TSS s]) /\ dims_agree [TShift [1; 2]%R (Some "x"); TScale (Vc [3; 4]%R) (Some 2) None; TNull None None].
Proof.
  split; [discriminate|]. split. { split; [discriminate|]. split; [|intros v E; inversion E; cbn; split; [auto|lia]]. cbn. unfold isnz. destruct (Req_EM_T 3 0); [lra|]. destruct (Req_EM_T 4 0); [lra|]. reflexivity. }
  split; [discriminate|]. split.
  - destruct s0_fit as [s' [b [F [H1 [H2 [H3 H4]]]]]]. exists s'. split; [|split; [auto|]].
    + split; [eapply sr_fit; [|exact F]; apply (sr_new true (Some Standard) true (Some "s")); reflexivity|]. split; [rewrite H4; discriminate|]. split; [rewrite H3; discriminate|tauto].
    + intros t t' n n' [<-|[<-|[]]] [<-|[<-|[]]]; cbn; rewrite ?H3; congruence.
  - intros t t' n n' [<-|[<-|[<-|[]]]] [<-|[<-|[<-|[]]]]; cbn; congruence.
Qed.
(* bases *)
Definition b2 : lb := {| lb_entries := eye 2; lb_weights := None; lb_n := Some 2; lb_r := 2; lb_name := Some "b" |}.
Lemma pod2_made : exists q, from_svd noX (eye 2) s2 (Some (eye 2)) (by_num 1) None None (Some "p") = Ok q /\ fitted_pod noX q /\ p_name q = Some "p".
Proof.
  destruct (from_svd_ok noX (eye 2) s2 (Some (eye 2)) (by_num 1) (CNum 1) (Some "p") 2 2 s2 (is_mat_eye 2) ltac:(lia) s2_norm eq_refl) as (q & E & Hs & Hd). { intros z Ez. inversion Ez. lia. }
  exists q. split; [exact E|]. unfold from_svd in E. replace (pick (by_num 1)) with (Ok (CNum 1)) in E by reflexivity. unfold pod_init in E. replace (pick (by_num 1)) with (Ok (CNum 1)) in E by reflexivity.
  cbn [bind] in E. unfold store_svd in E. rewrite s2_norm in E. cbn [andthen] in E.
  unfold from_criterion in E. cbn [p_svals pod_with_svd] in E. destruct (Req_EM_T _ _) as [|_]; [discriminate E|]. destruct (set_r _ _) as [q' [e|]] eqn:Q; [discriminate E|]. inversion E; subst q'. clear E.
  destruct (set_r_keeps _ _ _ _ Q) as (K1 & K2 & K3 & K4 & K5 & K6 & K7 & K8 & K9). cbn in K1, K2, K3, K4, K7, K8.
  split; [|exact K8]. assert (KC : p_crit q = CNum 1) by (refine (eq_trans (set_r_crit _ _ _ _ _ Q) _); [cbn; discriminate|reflexivity]). split; [rewrite KC; exact Hd|]. split; [rewrite K3; discriminate|]. split; [exists s2; split; [exact K1|split; [exact s2_dec|reflexivity]]|].
  split; [rewrite K7; discriminate|]. split; [rewrite K8; discriminate|]. rewrite K4. eexists. reflexivity.
Qed.
Example C46_bases : new_lb b2 /\ checkable b2 /\ good_basis noX (BLin b2) /\ exists p, fitted_pod noX p /\ good_basis noX (BPod p) /\ b_name (BPod p) <> None.
Proof.
  assert (H1 : new_lb b2) by (split; [discriminate|exists false; reflexivity]). assert (H2 : checkable b2) by (eexists; reflexivity).
  split; [auto|]. split; [auto|]. split; [split; auto|]. destruct pod2_made as [q [_ [F N]]]. exists q. split; [auto|]. split; [auto|]. cbn. rewrite N. discriminate.
Qed.
(* operators *)
Definition aF (e : option (list op)) : aff := {| a_cls := CLin; a_theta := (fun mu => TV (map (fun f => f mu) [fun _ : pval => 1%R; fun _ => 2%R])); a_nterms := 2; a_pdim := Some 1; a_entries := e |}.
Example C46_operators : SpecMono.valid_op o3 /\ built_aff (CIter [fun _ => 1%R; fun _ => 2%R]) (aF (Some [OLin [[1]]%R; OLin [[2]]%R])) /\ sized_aff (aF (Some [OLin [[1]]%R; OLin [[2]]%R])) /\
  built_aff (CInt 2) (ParaEx.af None) /\ a_pdim (ParaEx.af None) <> None.
Proof.
  split; [exact o3_valid|]. split; [eexists; split; [reflexivity|split; reflexivity]|]. split.
  - right. exists 1, 1, [OLin [[1]]%R; OLin [[2]]%R]. split; [lia|]. split; [reflexivity|]. split; [|split; [reflexivity|cbn; lia]]. repeat constructor.
  - split; [eexists; split; [reflexivity|split; reflexivity]|discriminate].
Qed.
Lemma itp3_made : i_init (px_cubic X1) (px_linnd X1) CLin mus0 [[[3]]; [[3]]]%R (Some constC) = Ok (itp_of CLin (OLin [[3]]%R)).
Proof. cbn -[constC]. rewrite constC_two. reflexivity. Qed.
Lemma itp3_built : built_itp X1 I0 None (itp_of CLin (OLin [[3]]%R)).
Proof.
  exists mus0, [[[3]]; [[3]]]%R, (Some constC), constC. split; [|split; [|split; [reflexivity|split; [right; split; reflexivity|discriminate]]]].
  - exact itp3_made.
  - intros ops E. inversion E. exists 1, 1. split; [lia|]. repeat constructor.
Qed.
Example C46_interpolated_example : (exists t, i_init (px_cubic X1) (px_linnd X1) CLin mus0 [[[3]]; [[3]]]%R (Some constC) = Ok t /\ sized_itp t /\ i_iclass t = Some constC /\ finds I0 None constC).
Proof.
  destruct itp3_built as [? [? [? [? [? [H2 [? [? ?]]]]]]]]. exists (itp_of CLin (OLin [[3]]%R)). split; [|split; [exact H2|split; [reflexivity|right; split; reflexivity]]].
  exact itp3_made.
Qed.
(* solvers: fitted, refitted, with another regularizer *)
Example C46_unknown_class_example : let I1 := {| si_name := fun _ => "Mine"; si_attr := fun _ => None |} in
  (exists t, i_init (px_cubic X1) (px_linnd X1) CLin mus0 [[[3]]; [[3]]]%R (Some constC) = Ok t /\ i_iclass t = Some constC) /\ si_attr I1 (si_name I1 constC) = None /\ si_name I1 constC <> "NoneType".
Proof. split; [exists (itp_of CLin (OLin [[3]]%R)); split; [exact itp3_made|reflexivity]|]. split; [reflexivity|discriminate]. Qed.
Example C46_solver_example : made_solver (LL2 {| l2_reg := Some 1%R; l2_pre := None |}) /\ made_solver new_plain /\ fits_returned X0 new_plain [SFit (M [[1]]%R) (M [[2]]%R); SFit (M [[1]]%R) (M [[3]]%R)] /\
  srun X0 new_plain [SFit (M [[1]]%R) (M [[2]]%R)] <> new_plain.
Proof.
  split. { split; [reflexivity|]. intros x E. inversion E. lra. } split. { split; [reflexivity|discriminate]. }
  split; [|discriminate]. cbn. repeat split; intros; match goal with H : SFit _ _ = SFit _ _ |- _ => inversion H end; reflexivity.
Qed.
(* models: a known and an inferred operator, before and after training *)
Example C46_model_example : lsx_ok X0 /\ reach X0 dK /\ positive_dims dK /\ reach X0 dK1 /\ positive_dims dK1 /\ check_trained dK1 = Ok tt /\ (exists s, m_solver dK1 = Some s /\ s <> new_plain /\ saves I0 (SvSolver s)).
Proof.
  split; [exact X0_ok|]. split; [exact dK_reach|]. split; [split; discriminate|]. split; [exact dK1_reach|]. split; [split; discriminate|]. split; [reflexivity|].
  eexists. split; [reflexivity|]. split; [discriminate|]. apply solver_saves; [|exact I]. cbn; auto.
Qed.
(* a trained interpolatory model *)
Example C46_interp_model_example : passes I0 None None None /\ dims_of_ops (im_base im0') /\ ifit X1 im0 mus0 sts0 lhs0 None = (im0', Ok tt) /\
  (forall o, In o (pm_ops (im_base im0')) -> exists t, o = PItp t /\ built_itp X1 I0 None t /\ i_pdim t = Some 1).
Proof.
  split; [split; reflexivity|]. split.
  - split; [exists 1; split; [lia|]; split; [reflexivity|]; intros o [<-|[]]; reflexivity|]. split; [exists 0; split; [reflexivity|]; split; [intros o [<-|[]]; discriminate|auto]|]. split; [reflexivity|discriminate].
  - split; [exact im0_fit|]. intros o [<-|[]]. eexists. split; [reflexivity|]. split; [exact itp3_built|reflexivity].
Qed.
(* posteriors *)
Definition X3 : mvn := {| x_cov := fun P => Ok P; x_psd := fun _ => Ok tt |}.
Example C46_posterior_example : mvn_ok X3 /\ (exists p, post_init X3 [[1; 2]; [3; 4]]%R [eye 2; eye 2] false = Ok p) /\ exists p, post_init X3 [[1; 2]; [3; 4]]%R [eye 2; eye 2] true = Ok p.
Proof. split; [|split; eexists; reflexivity]. intros P C n E H. inversion E; subst. auto. Qed.
