(* SpecSave.v -- vocabulary for properties C45 and C46 (saving and loading). *)
From Coq Require Import String ZArith.
From Verif Require Export SpecReq SpecParam SaveModel.
#[local] Open Scope string_scope.
#[local] Open Scope nat_scope.
#[local] Open Scope list_scope.

(* nothing goes wrong outside the program *)
Definition calm : world := {| w_open := true; w_kill := None |}.
(* there is a file at this path *)
Definition is_file (f : fs) (path : str) : Prop := exists c, f path = Some (File c).
(* the file at this path holds exactly what it held *)
Definition untouched (f f' : fs) (path : str) : Prop := f' path = f path.

(* ---- C45 -------------------------------------------------------------------------------------------------------------- *)
(* one call x.save(path, overwrite), in some world *)
Record scall := { c_world : world; c_path : str; c_ow : option bool; c_obj : saveable }.
Definition srun1 (I : spi) (f : fs) (c : scall) : fs * wstat := save I (c_world c) f (c_path c) (c_ow c) (c_obj c).
(* the files after these calls: returning, raising or killed *)
Fixpoint after_saves (I : spi) (f : fs) (l : list scall) : fs := match l with [] => f | c :: t => after_saves I (fst (srun1 I f c)) t end.
(* the caller gave permission to overwrite: in so many words, or by the default of the class *)
Definition permitted (c : scall) : Prop := match c_ow c with Some b => b = true | None => default_overwrite (c_obj c) = true end.

(* ---- C46 -------------------------------------------------------------------------------------------------------------- *)
(* whatever the world, if the save returns then the file it leaves loads as y *)
Definition loads_as {A} (I : spi) (x : saveable) (load : node -> res A) (y : A) : Prop :=
  forall w f path ow f', save I w f path ow x = (f', Done) -> load_file f' path load = Ok y.
(* a save to a new path returns, if nothing goes wrong outside *)
Definition saves (I : spi) (x : saveable) : Prop := forall f path, f path = None -> exists f', save I calm f path None x = (f', Done).
Definition comes_back {A} (I : spi) (x : saveable) (load : node -> res A) (y : A) : Prop := saves I x /\ loads_as I x load y.
(* a file that was saved, but that load() refuses *)
Definition cannot_be_loaded {A} (I : spi) (x : saveable) (load : node -> res A) : Prop :=
  saves I x /\ forall w f path ow f', save I w f path ow x = (f', Done) -> load_file f' path load = Err LoadfileFormatError.
(* an object that cannot be saved at all *)
Definition cannot_be_saved (I : spi) (x : saveable) : Prop := forall w f path ow f', save I w f path ow x <> (f', Done).

(* a transformer's name survives *)
Definition keeps_name (nm : option str) : Prop := nm <> Some "None".
(* ShiftScaleTransformer: as its constructor leaves it, after calls of fit() and after assignments to its attributes
   (numbers for scale_ and shift_ without byrow; state_dimension only while nothing is known) *)
Inductive ss_reach : ss -> Prop :=
| sr_new c sc b nm s : ss_init c sc b nm = Ok s -> ss_reach s
| sr_fit s a s' p : ss_reach s -> ss_fit s a = Ok (s', p) -> ss_reach s'
| sr_mean s v s' : ss_reach s -> ss_set_mean v s = Ok s' -> ss_reach s'
| sr_scale s c s' : ss_reach s -> (ss_byrow s = false -> exists x, c = Sc x) -> ss_set_scale c s = Ok s' -> ss_reach s'
| sr_shift s c s' : ss_reach s -> (ss_byrow s = false -> exists x, c = Sc x) -> ss_set_shift c s = Ok s' -> ss_reach s'
| sr_name s nm : ss_reach s -> ss_reach (ss_set s nm (ss_n s))
| sr_dim s n : ss_reach s -> ss_mean s = None -> ss_scale s = None -> ss_shift s = None -> ss_reach (ss_set s (ss_name s) n).
(* a transformer that is not a join of others, in a state it can reach, less the exceptions proved apart *)
Definition plain_tf (t : tf) : Prop :=
  match t with
  | TShift _ nm => keeps_name nm
  | TScale c n nm => keeps_name nm /\ coef_nz c = true /\ (forall v, c = Vc v -> n = Some (length v) /\ length v <> 1)
  | TSS s => ss_reach s /\ keeps_name (ss_name s) /\ ss_n s <> Some 0 /\ (ss_scale s = None <-> ss_shift s = None)
  | TNull _ nm => keeps_name nm
  | TPipe _ _ | TMulti _ => False
  end.
(* the dimensions known to the members of a pipeline agree *)
Definition dims_agree (l : list tf) : Prop := forall t t' n n', In t l -> In t' l -> tf_dim t = Some n -> tf_dim t' = Some n' -> n = n'.

(* ---- bases ---- *)
(* singular values as fit() stores them: decreasing, the first equal to one *)
Definition normal_svals (s : vec) : Prop := SpecBasis.decreasing s /\ vget s 0 = 1%R.
(* the constructor accepts these weights with the default SVD solver *)
Definition weights_ok (X : ext) (W : option weight) : Prop := exists p, pod_init X (by_num 1) None SDense W None = Ok p.
(* a PODBasis whose dimension is the one its criterion selects, as fit(), set_dimension() and from_svd() leave it *)
Definition fitted_pod (X : ext) (p : pod) : Prop :=
  dimensioned X (p_crit p) p /\ p_right p <> None /\ (exists s, p_svals p = Some s /\ normal_svals s) /\
  p_max p <> Some 0 /\ p_name p <> Some "" /\ weights_ok X (p_weights p).
(* equal in everything but the SVD solver and what belongs to it *)
Definition same_pod (p q : pod) : Prop :=
  p_name q = p_name p /\ p_crit q = p_crit p /\ p_max q = p_max p /\ p_weights q = p_weights p /\
  p_left q = p_left p /\ p_svals q = p_svals p /\ p_right q = p_right p /\ p_cum q = p_cum p /\ p_res q = p_res p /\
  p_entries q = p_entries p /\ p_n q = p_n p /\ p_r q = p_r p.
(* a LinearBasis as its constructor leaves it *)
Definition new_lb (b : lb) : Prop := lb_name b <> Some "" /\ exists check, lb_init (lb_entries b) (lb_weights b) check (lb_name b) = Ok b.
(* the orthogonality check of the constructor does not raise *)
Definition checkable (b : lb) : Prop := exists w, not_orthogonal (lb_entries b) (lb_weights b) = Ok w.
Definition same_basis (b c : basis) : Prop :=
  match b, c with BLin l, BLin l' => l' = l | BPod p, BPod q => same_pod p q | _, _ => False end.
Definition good_basis (X : ext) (b : basis) : Prop := match b with BLin l => new_lb l /\ checkable l | BPod p => fitted_pod X p end.

(* ---- operators ---- *)
(* the terms of an affine operator, if it has any, are as many as its coefficients, of its class and of one size *)
Definition sized_aff (a : aff) : Prop := a_entries a = None \/ exists r m ops, 0 < r /\ affine_of r m a ops.
(* the object, less its entries and parameter dimension, is what AffineOperator(coeffs, nterms=nterms) makes *)
Definition built_aff (coeffs : coeffarg) (a : aff) : Prop :=
  exists a0, aff_init (a_cls a) coeffs (Some (a_nterms a)) = Ok a0 /\ a_theta a0 = a_theta a /\ a_nterms a0 = a_nterms a.
(* load() finds this interpolator class: it is given, or is the class of scipy.interpolate with the name that was stored *)
Definition finds (I : spi) (arg : option iclass) (C : iclass) : Prop := arg = Some C \/ arg = None /\ si_attr I (si_name I C) = Some C.
(* the entries of the interpolated operator are of its class and of one size *)
Definition sized_itp (t : itp) : Prop := forall ops, i_entries t = Some ops -> exists r m, 0 < r /\ SpecParam.family r m (i_cls t) ops.
(* scalar training parameters are in increasing order *)
Definition in_order (t : itp) : Prop := forall xs, i_params t = Some (map PS xs) -> strictly_inc xs.

(* ---- solvers ---- *)
(* a solver as its constructor leaves it (the LAPACK driver is not called "NULL") *)
Definition made_solver (s : lsq) : Prop :=
  new_solver s /\
  match s with
  | LPlain p => o_driver (pl_opts p) <> Some "NULL"
  | LTik p => o_driver (tk_opts p) <> Some "NULL"
  | LL2 p => forall x, l2_reg p = Some x -> (0 <= x)%R
  | LL2D p => forall v, ld_reg p = Some v -> forall i, i < length v -> (0 <= vget v i)%R
  | _ => True
  end.
(* no call of fit() has raised *)
Fixpoint fits_returned (X : lsx) (s : lsq) (l : list sev) : Prop :=
  match l with [] => True | ev :: t => (forall D Z, ev = SFit D Z -> snd (sstep X s ev) = Ok tt) /\ fits_returned X (fst (sstep X s ev)) t end.
(* num_svdmodes is a number; the matrices of a TikhonovDecoupledSolver have one shape *)
Definition plain_regs (s : lsq) : Prop :=
  match s with
  | LTsvd p => ts_modes p <> None
  | LTikD p => forall Gs, td_reg p = Some Gs -> same_shapes Gs = true
  | _ => True
  end.

(* ---- models ---- *)
(* the same class, operators, roles of the operators, and dimensions *)
Definition same_model (d d' : model) : Prop :=
  m_kind d' = m_kind d /\ m_frozen d' = m_frozen d /\ m_ops d' = m_ops d /\ m_infer d' = m_infer d /\ m_known d' = m_known d /\
  m_hasin d' = m_hasin d /\ m_r d' = m_r d /\ m_m d' = m_m d.
(* the dimensions, where known, are positive *)
Definition positive_dims (d : model) : Prop := m_r d <> Some 0 /\ (m_hasin d = true -> m_m d <> Some 0).
(* the two models evaluate alike *)
Definition evaluates_alike (d d' : model) : Prop :=
  check_trained d' = check_trained d /\ operator_matrix d' = operator_matrix d /\
  (forall q u, rhs d' q u = rhs d q u) /\ (forall junk q u, model_jacobian junk d' q u = model_jacobian junk d q u) /\
  (forall t q f, cont_rhs d' t q f = cont_rhs d t q f) /\ (forall q0 n u, predict d' q0 n u = predict d q0 n u).

(* ---- interpolatory models ---- *)
(* the operator is as its constructor leaves it, and scipy's class of its interpolator is found again from [arg] *)
Definition built_itp (X : pext) (I : spi) (arg : option iclass) (t : itp) : Prop :=
  exists ps Es ic C, i_init (px_cubic X) (px_linnd X) (i_cls t) ps Es ic = Ok t /\ sized_itp t /\ i_iclass t = Some C /\ finds I arg C /\ (ic = None -> in_order t).
(* load() passes [carg] to the operators, given its own argument [arg] and a model with InterpolatorClass [ic] *)
Definition passes (I : spi) (arg ic carg : option iclass) : Prop :=
  match arg, ic with
  | Some C, _ => carg = Some C
  | None, Some C => si_attr I (si_name I C) = Some C /\ carg = Some C
  | None, None => si_attr I "NoneType" = None /\ carg = None
  end.
(* same class, operators, roles and dimensions *)
Definition same_imodel (d d' : pmodel) : Prop :=
  pm_kind d' = pm_kind d /\ pm_ops d' = pm_ops d /\ pm_infer d' = pm_infer d /\ pm_known d' = pm_known d /\
  pm_hasin d' = pm_hasin d /\ pm_r d' = pm_r d /\ pm_m d' = pm_m d.
(* the dimensions of the model are those of its operators (there is one), and positive *)
Definition dims_of_ops (d : pmodel) : Prop :=
  (exists r, 0 < r /\ pm_r d = Some r /\ forall o, In o (pm_ops d) -> prows o = Some r) /\
  (exists m, pm_m d = Some m /\ (forall o, In o (pm_ops d) -> ptakes o = true -> 0 < m /\ pinputs o = Some m) /\ (existsb ptakes (pm_ops d) = false -> m = 0)) /\
  pm_hasin d = existsb ptakes (pm_ops d) /\ pm_ops d <> [].

(* ---- posteriors of Bayesian reduced-order models ---- *)
(* scipy: the covariance belonging to a precision matrix is accepted as a covariance, and is of the same size *)
Definition mvn_ok (X : mvn) : Prop := forall P C n, x_cov X P = Ok C -> shape_is n n P = true -> x_psd X C = Ok tt /\ shape_is n n C = true.
