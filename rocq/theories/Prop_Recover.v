(* Prop_Recover.v -- property C75 (exact data, exact operators; more regularization). *)
From Coq Require Import String ZArith Reals Lra Lia List.
From Verif Require Import LinAlg MatAlg OpsProofs PolyOpProofs MonoEx GenProofs GenMain GenClasses PGenProofs PGenMain PGenClasses SolverCond Prop_Lstsq Prop_Reproj Prop_Gen Prop_PGen RecoverGen RecoverMono RecoverReg.
From Verif Require Import SpecLstsq SpecReproj SpecRecover SpecGen.
#[local] Open Scope nat_scope.
#[local] Open Scope list_scope.

(* C75: operators of any class. If some matrices produce the left-hand sides exactly, then after fit(), and any refits with other regularizers, the misfit of the learned ones is in every row at most the penalty of those; if that is zero, rhs() at every snapshot is the left-hand side, and if the snapshots determine the matrices, they are learned exactly and rhs() is theirs everywhere. *)
Theorem C75_recovers :
  forall X r m k args fs states lhs inputs Q Z U d' Es0 s pen,
  lsx_ok X -> 0 < r -> 0 < m -> Forall2 (described r m) args fs -> some_unknown args ->
  data r m k args states lhs inputs Q Z U -> gsession X r m args states lhs inputs d' ->
  valued r args fs Es0 -> explains r m k fs Es0 Q Z U -> gm_solver d' = Some s -> penalty s (unknowns args fs) = Some pen ->
  exists Es, valued r args fs Es /\ map go_ent (gm_ops d') = map Some Es /\
    (forall i, i < r -> (misfit_of r m k fs Es Q Z U i <= pen (hstack (learned args Es0)) i)%R) /\
    ((forall i, i < r -> pen (hstack (learned args Es0)) i = 0%R) ->
       (forall j ou, j < k -> (any_inputs args -> ou = Some (V (colv m U j))) -> grhs d' (V (colv r Q j)) ou = Ok (V (colv r Z j))) /\
       (determined r m k args fs Es0 Q U -> Es = Es0 /\
          forall q u ou, is_vec r q -> is_vec m u -> (any_inputs args -> ou = Some (V u)) ->
            exists y, grhs d' (V q) ou = Ok (V y) /\ is_vec r y /\ forall i, i < r -> vget y i = value fs Es0 q u i)).
Proof. exact recovers. Qed.
Print Assumptions C75_recovers.

(* C75: the same for parametric models made of operators of any class: rhs() at every training parameter and snapshot, and at every parameter value if the matrices are determined. *)
Theorem C75_recovers_parametric :
  forall X r m args xs mus states lhs inputs ks Qs Zs Us d' Es0 s pen,
  lsx_ok X -> 0 < r -> Forall2 (ydescribed r m) args xs -> y_some_unknown args ->
  ydata r m args mus states lhs inputs ks Qs Zs Us -> ysession X r m args mus states lhs inputs d' ->
  yshapes r mus xs Es0 -> yexplains r m mus ks xs Es0 Qs Zs Us -> ym_solver d' = Some s -> penalty s (yunknowns mus xs) = Some pen ->
  exists Es, yshapes r mus xs Es /\ map yo_ent (filter (fun o => negb (yo_known o)) (ym_ops d')) = map Some Es /\
    (forall row, row < r -> (ymisfit r m mus ks xs Es Qs Zs Us row <= pen (hstack Es0) row)%R) /\
    ((forall row, row < r -> pen (hstack Es0) row = 0%R) ->
       (forall i j ou, i < length mus -> j < nth i ks 0 -> Forall2 (y_defined mus (param mus i)) args xs -> (y_any_inputs args -> ou = Some (V (colv m (traj Us i) j))) ->
          yrhs d' (param mus i) (V (colv r (traj Qs i) j)) ou = Ok (V (colv r (traj Zs i) j))) /\
       (ydetermined r m mus ks xs Es0 Qs Us -> Es = Es0 /\
          forall mu q u ou, Forall2 (y_defined mus mu) args xs -> is_vec r q -> is_vec m u -> (y_any_inputs args -> ou = Some (V u)) ->
            exists y, yrhs d' mu (V q) ou = Ok (V y) /\ is_vec r y /\ forall i, i < r -> vget y i = yvalue_at mus mu xs Es0 q u i)).
Proof. exact yrecovers. Qed.
Print Assumptions C75_recovers_parametric.

(* C75: models of the operators of the library, without regularization: if some values of the operators to be learned produce the left-hand sides, rhs() of the fitted model does. *)
Theorem C75_fit_exact :
  forall X d states lhs inputs d' p r m k l,
  lsx_ok X -> reach X d -> m_intrusive d = false -> good_arr states -> good_arr lhs -> valid_in inputs ->
  fit X d states lhs inputs = (d', Ok tt) -> m_solver d = Some (LPlain p) ->
  m_r d' = Some r -> m_m d' = Some m -> is_mat r k (atleast_2d states) -> candidate r m d' l ->
  (forall j, j < k -> rhs (with_ops l d') (V (colv r (atleast_2d states) j)) (ucol inputs j) = Ok (V (colv r (atleast_2d lhs) j))) ->
  forall j, j < k -> rhs d' (V (colv r (atleast_2d states) j)) (ucol inputs j) = Ok (V (colv r (atleast_2d lhs) j)).
Proof. exact fit_exact. Qed.
Print Assumptions C75_fit_exact.

(* C75: a discrete model fitted to a trajectory that some values of its operators produce predicts the trajectory, all of it, from its first snapshot. *)
Theorem C75_reproduces :
  forall X d Q r k m inputs d' p l,
  lsx_ok X -> reach X d -> m_intrusive d = false -> 0 < r -> 1 < k -> is_mat r k Q -> driven d' (k - 1) inputs -> valid_in inputs ->
  discrete_fit X d (M Q) None inputs = (d', Ok tt) -> m_solver d = Some (LPlain p) -> m_m d' = Some m -> candidate r m d' l ->
  (forall j, j + 1 < k -> rhs (with_ops l d') (V (colv r Q j)) (step_input d' (option_map UArr inputs) j) = Ok (V (colv r Q (j + 1)))) ->
  predict d' (V (colv r Q 0)) (Z.of_nat k) (option_map UArr inputs) = Ok Q.
Proof. exact reproduces. Qed.
Print Assumptions C75_reproduces.

(* C75: L2Solver: a larger regularizer gives in every row a misfit at least as large and an operator matrix at most as large. *)
Theorem C75_l2_path :
  forall svd s1 s2 D Z a b A B,
  svd_spec svd -> l2_reach svd s1 -> l2_reach svd s2 -> odata (l2_pre s1) = Some (D, Z) -> odata (l2_pre s2) = Some (D, Z) ->
  l2_reg s1 = Some a -> l2_reg s2 = Some b -> (0 <= a < b)%R -> l2_solve s1 = Ok A -> l2_solve s2 = Ok B ->
  let k := nrows D in let d := ncols D in
  forall i, (i < nrows Z)%nat -> (row_size d B i <= row_size d A i)%R /\ (misfit k d D Z A i <= misfit k d D Z B i)%R.
Proof. exact l2_path. Qed.
Print Assumptions C75_l2_path.

(* C75: L2Solver: misfit plus penalty is in every row at most the sum of the squared left-hand sides. *)
Theorem C75_l2_bounded :
  forall svd s D Z a A,
  svd_spec svd -> l2_reach svd s -> odata (l2_pre s) = Some (D, Z) -> l2_reg s = Some a -> l2_solve s = Ok A ->
  forall i, (i < nrows Z)%nat -> (misfit (nrows D) (ncols D) D Z A i + a * a * row_size (ncols D) A i <= bsum (nrows D) (fun t => Rsqr (mget Z i t)))%R.
Proof. exact l2_bounded. Qed.
Print Assumptions C75_l2_bounded.

(* C75: TikhonovSolver, both methods: the same for multiples of any matrix, the size being the penalty for that matrix. *)
Theorem C75_tikhonov_path :
  forall lst slv s1 s2 D Z G a b A B,
  lstsq_spec lst (tk_opts s1) -> lstsq_spec lst (tk_opts s2) -> solve_spec slv -> tk_reach s1 -> tk_reach s2 ->
  tk_data s1 = Some (D, Z) -> tk_data s2 = Some (D, Z) -> is_mat (ncols D) (ncols D) G ->
  tk_reg s1 = Some (mscale a G) -> tk_reg s2 = Some (mscale b G) -> (0 <= a < b)%R -> tk_solve lst slv s1 = Ok A -> tk_solve lst slv s2 = Ok B ->
  let k := nrows D in let d := ncols D in
  forall i, (i < nrows Z)%nat -> (tikpen d G B i <= tikpen d G A i)%R /\ (misfit k d D Z A i <= misfit k d D Z B i)%R.
Proof. exact tikhonov_path. Qed.
Print Assumptions C75_tikhonov_path.

(* the hypotheses are met.  q' = 3 q + x q^2 with known first term: the data q = 1, q' = 5 determine x = 2 *)
Lemma mat11 E : is_mat 1 1 E -> exists x, E = [[x]].
Proof. intros [L F]. destruct E as [|v [|w E]]; try discriminate. inversion F as [|? ? Hv _]; subst. destruct v as [|x [|y v]]; try discriminate. eauto. Qed.
Example C75_recovers_example : exists d' s, gsession X0 1 1 args1 (V [1]%R) (V [5]%R) None d' /\ gm_solver d' = Some s /\
  (exists pen, penalty s (unknowns args1 [poly_feature 1 1; square_feature 1]) = Some pen /\ forall O i, pen O i = 0%R) /\
  Forall2 (described 1 1) args1 [poly_feature 1 1; square_feature 1] /\ some_unknown args1 /\ SpecGen.data 1 1 1 args1 (V [1]%R) (V [5]%R) None [[1]]%R [[5]]%R [[0]]%R /\
  valued 1 args1 [poly_feature 1 1; square_feature 1] [[[3]]; [[2]]]%R /\
  explains 1 1 1 [poly_feature 1 1; square_feature 1] [[[3]]; [[2]]]%R [[1]]%R [[5]]%R [[0]]%R /\
  determined 1 1 1 args1 [poly_feature 1 1; square_feature 1] [[[3]]; [[2]]]%R [[1]]%R [[0]]%R.
Proof.
  destruct C70_fit_example as (_ & _ & _ & _ & _ & HD & _ & _ & HS & _). destruct C70_described as (HF & _ & _ & HU & _).
  do 2 eexists. split; [exact HS|]. split; [reflexivity|]. split; [eexists; split; [reflexivity|auto]|]. split; auto. split; auto. split; auto. split; [|split].
  - cbn. repeat split; try (apply one_mat); try (intros E [= <-]; reflexivity); discriminate.
  - intros i j Hi Hj. assert (i = 0) by lia. assert (j = 0) by lia. subst. cbn. unfold mono, lprod, Rsqr. cbn. ring.
  - intros Es' HV HE. destruct Es' as [|A [|B [|C Es']]]; cbn in HV; try tauto. destruct HV as (_ & HA & HB & _ & _). rewrite (HA [[3]]%R eq_refl) in *.
    destruct (mat11 B HB) as (x & ->). specialize (HE 0 0 ltac:(lia) ltac:(lia)). cbn in HE. unfold mono, lprod, Rsqr in HE. cbn in HE. do 4 f_equal. lra.
Qed.
(* q' = 3 q + mu x q^2 *)
Example C75_recovers_parametric_example : exists d' s, ysession X0 1 1 pargs [PS 1%R] [V [1]%R] [V [5]%R] None d' /\ ym_solver d' = Some s /\
  (exists pen, penalty s (yunknowns [PS 1%R] pdescs) = Some pen /\ forall O i, pen O i = 0%R) /\
  Forall2 (ydescribed 1 1) pargs pdescs /\ y_some_unknown pargs /\ ydata 1 1 pargs [PS 1%R] [V [1]%R] [V [5]%R] None [1] [[[1]]]%R [[[5]]]%R [[[0]]]%R /\
  yshapes 1 [PS 1%R] pdescs [[[2]]]%R /\ yexplains 1 1 [PS 1%R] [1] pdescs [[[2]]]%R [[[1]]]%R [[[5]]]%R [[[0]]]%R /\
  ydetermined 1 1 [PS 1%R] [1] pdescs [[[2]]]%R [[[1]]]%R [[[0]]]%R /\ Forall2 (y_defined [PS 1%R] (param [PS 1%R] 0)) pargs pdescs.
Proof.
  destruct C74_fit_example as (_ & _ & _ & _ & HS & _). destruct C74_described as (HF & HU & HD).
  do 2 eexists. split; [exact HS|]. split; [reflexivity|]. split; [eexists; split; [reflexivity|auto]|]. split; auto. split; auto. split; auto. split; [|split; [|split]].
  - cbn. repeat split; apply pone.
  - intros i j row Hi Hj Hr. cbn in Hi. assert (i = 0) by lia. subst. cbn in Hj. assert (j = 0) by lia. assert (row = 0) by lia. subst. cbn. unfold mono, lprod. cbn. ring.
  - intros Es' HV HE. destruct Es' as [|B [|C Es']]; cbn in HV; try tauto. destruct HV as (HB & _).
    destruct (mat11 B HB) as (x & ->). specialize (HE 0 0 0 ltac:(cbn; lia) ltac:(cbn; lia) ltac:(lia)). cbn in HE. unfold mono, lprod in HE. cbn in HE. do 3 f_equal. lra.
  - constructor; [split; [discriminate|exact I]|]. constructor; [|constructor]. cbn. split; [reflexivity|]. eexists. reflexivity.
Qed.
(* the trajectory 1, 2 of q_{j+1} = 2 q_j *)
Example C75_reproduces_example : reach X0 dAd /\ m_intrusive dAd = false /\ (exists p, m_solver dAd = Some (LPlain p)) /\ is_mat 1 2 [[1; 2]]%R /\
  exists d', discrete_fit X0 dAd (M [[1; 2]]%R) None None = (d', Ok tt) /\ SpecReproj.driven d' (2 - 1) None /\ m_m d' = Some 0 /\ m_r d' = Some 1 /\ candidate 1 0 d' [knw (OLin [[2]]%R)] /\
  forall j, j + 1 < 2 -> rhs (with_ops [knw (OLin [[2]]%R)] d') (V (colv 1 [[1; 2]]%R j)) (step_input d' None j) = Ok (V (colv 1 [[1; 2]]%R (j + 1))).
Proof.
  destruct C48_discrete_example as (_ & _ & _ & _ & HR & _). split; auto. split; auto. split; [eexists; reflexivity|]. split; [split; repeat constructor|]. eexists. split.
  { change (discrete_fit X0 dAd (M [[1; 2]]%R) None None) with (fit X0 dAd (M [[1]]%R) (M [[2]]%R) None). unfold fit. change (m_frozen dAd) with false. change (m_intrusive dAd) with false. cbv iota.
    assert (E : fit_solver X0 dAd (M [[1]]%R) (M [[2]]%R) None = (with_solver (Some s12) (with_m (Some 0) (with_r (Some 1) dAd)), Ok tt)) by reflexivity. rewrite E. cbn [seqm].
    unfold refit. cbn [with_solver m_intrusive with_m with_r dAd m_solver]. rewrite solve12. reflexivity. }
  split; [left; split; reflexivity|]. split; [reflexivity|]. split; [reflexivity|]. split.
  - split; [reflexivity|]. split; [intros i []|]. intros i [<-|[]]. exists (knw (OLin [[2]]%R)), (OLin [[2]]%R). repeat split; repeat constructor.
  - intros j Hj. assert (j = 0) by lia. subst. cbn. do 3 f_equal. ring.
Qed.
Example C75_l2_path_example : exists s1 s2 A B, l2_reach svdE s1 /\ l2_reach svdE s2 /\ odata (l2_pre s1) = Some (D32, Z23) /\ odata (l2_pre s2) = Some (D32, Z23) /\
  l2_reg s1 = Some 1%R /\ l2_reg s2 = Some 3%R /\ l2_solve s1 = Ok A /\ l2_solve s2 = Ok B.
Proof.
  assert (H : forall x, (0 < x)%R -> exists s O, l2_reach svdE s /\ odata (l2_pre s) = Some (D32, Z23) /\ l2_reg s = Some x /\ l2_solve s = Ok O).
  { intros x Hx. exists {| l2_reg := Some x; l2_pre := Some preE |}.
    assert (HR : l2_reach svdE {| l2_reg := Some x; l2_pre := Some preE |}).
    { apply (l2r_fit svdE (fst (l2_set {| l2_reg := None; l2_pre := None |} (RScalar x))) (M D32) (M Z23)); [apply l2r_reg, l2r_new|apply gD|apply gZ|].
      unfold l2_fit. rewrite fitE. cbn [l2_set]. destruct (Rlt_dec x 0) as [|_]; [lra|reflexivity]. }
    destruct (l2_defined svdE _ D32 Z23 x svdE_spec HR eq_refl eq_refl ltac:(lra)) as [O HO].
    exists O. repeat split; auto. }
  destruct (H 1%R ltac:(lra)) as (s1 & A & K1 & K2 & K3 & K4). destruct (H 3%R ltac:(lra)) as (s2 & B & L1 & L2 & L3 & L4).
  exists s1, s2, A, B. repeat split; auto.
Qed.
Example C75_tikhonov_path_example : exists s1 s2 A B, tk_reach s1 /\ tk_reach s2 /\ tk_data s1 = Some ([[1]], [[1]])%R /\ tk_data s2 = Some ([[1]], [[1]])%R /\
  tk_reg s1 = Some (mscale 1 [[1]]%R) /\ tk_reg s2 = Some (mscale 2 [[1]]%R) /\ tk_solve lstE slv1 s1 = Ok A /\ tk_solve lstE slv1 s2 = Ok B /\ is_mat 1 1 [[1]]%R.
Proof.
  set (t := fun x : R => {| tk_reg := Some [[x * 1]]%R; tk_method := MNormal; tk_opts := no_opts; tk_data := Some ([[1]], [[1]])%R; tk_pre := Some (mkpads [[1]] [[1]])%R |}).
  assert (HR : forall x, tk_reach (t x)).
  { intros x. apply (tkr_fit (fst (tk_set {| tk_reg := None; tk_method := MNormal; tk_opts := no_opts; tk_data := None; tk_pre := None |} (Some (M [[x * 1]]%R)))) (M [[1]]%R) (M [[1]]%R)).
    - apply tkr_reg, tkr_new.
    - apply good_1x1.
    - apply good_1x1.
    - reflexivity. }
  assert (HS : forall x, exists O, tk_solve lstE slv1 (t x) = Ok O).
  { intros x. unfold t, tk_solve, tk_solve1, madd_r, mkpads. cbn. destruct (Req_EM_T _ 0) as [K|_]; [nra|]. cbn. eexists. reflexivity. }
  destruct (HS 1%R) as (A & HA). destruct (HS 2%R) as (B & HB). exists (t 1%R), (t 2%R), A, B. repeat split; auto; repeat constructor.
Qed.
