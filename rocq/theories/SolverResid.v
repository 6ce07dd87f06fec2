(* SolverResid.v -- agreement of the solvers (C35) and the reported residuals (C36). *)
From Verif Require Export SolverTik.
#[local] Open Scope R_scope.

(* ---- agreement ---- *)
Lemma agree_unique r d f O1 O2 : row_minimizer r d f O1 -> row_unique r d f O1 -> row_minimizer r d f O2 -> O1 = O2.
Proof.
  intros [H1 M1] U [H2 M2]. apply (mat_ext r d); auto. intros i j Hi Hj. symmetry. apply (U O2 i H2 Hi); auto.
Qed.
Lemma lsq_mid m d A z x y : lsq m d A z (fun l => (x l + y l) / 2) <= (lsq m d A z x + lsq m d A z y) / 2.
Proof.
  unfold lsq. rewrite <- bsum_plus. unfold Rdiv. rewrite <- bsum_scal_r. apply bsum_le. intros t Ht.
  assert (E : resid d A (fun l => (x l + y l) * / 2) z t = (resid d A x z t + resid d A y z t) / 2).
  { unfold resid. rewrite (bsum_ext d _ (fun l => (A t l * x l + A t l * y l) * / 2)) by (intros; ring).
    rewrite bsum_scal_r, bsum_plus. field. }
  rewrite E. unfold sq. pose proof (Rle_0_sqr (resid d A x z t - resid d A y z t)) as H. unfold Rsqr in H. nra.
Qed.
Lemma nrm2_mid d x y : nrm2 d (fun l => (x l + y l) / 2) = (nrm2 d x + nrm2 d y) / 2 - nrm2 d (fun l => x l - y l) / 4.
Proof.
  unfold nrm2. rewrite <- bsum_plus. unfold Rdiv. rewrite <- !bsum_scal_r, <- bsum_minus. apply bsum_ext. intros. unfold sq. field.
Qed.
Lemma agree_shortest k d r D Z G O1 O2 :
  row_minimizer r d (tikobj k d D Z G) O1 -> row_shortest r d (tikobj k d D Z G) O1 ->
  row_minimizer r d (tikobj k d D Z G) O2 -> row_shortest r d (tikobj k d D Z G) O2 -> O1 = O2.
Proof.
  intros [H1 M1] S1 [H2 M2] S2. apply (mat_ext r d); auto. intros i j Hi Hj.
  set (Om := map (fun i => map (fun l => (mget O1 i l + mget O2 i l) / 2) (seq 0 d)) (seq 0 r)).
  assert (HOm : is_mat r d Om) by apply is_mat_tab.
  assert (EOm : forall l, (l < d)%nat -> mget Om i l = (mget O1 i l + mget O2 i l) / 2) by (intros; unfold Om; now rewrite mget_tab).
  assert (E12 : tikobj k d D Z G O1 i = tikobj k d D Z G O2 i) by (apply Rle_antisym; auto).
  assert (Em : tikobj k d D Z G Om i <= tikobj k d D Z G O1 i).
  { apply Rle_trans with ((tikobj k d D Z G O1 i + tikobj k d D Z G O2 i) / 2); [|lra].
    unfold tikobj. rewrite !misfit_lsq, !tikpen_lsq.
    pose proof (lsq_mid k d (mget D) (mget Z i) (mget O1 i) (mget O2 i)).
    pose proof (lsq_mid d d (mget (G i)) zf (mget O1 i) (mget O2 i)).
    rewrite (lsq_ext k d (mget D) (mget Z i) (mget Om i) (mget D) (mget Z i) (fun l => (mget O1 i l + mget O2 i l) / 2)) by auto.
    rewrite (lsq_ext d d (mget (G i)) zf (mget Om i) (mget (G i)) zf (fun l => (mget O1 i l + mget O2 i l) / 2)) by auto. lra. }
  pose proof (S1 Om i HOm Hi Em) as N1. pose proof (S2 Om i HOm Hi ltac:(rewrite <- E12; exact Em)) as N2.
  change (nrm2 d (mget O1 i) <= nrm2 d (mget Om i)) in N1. change (nrm2 d (mget O2 i) <= nrm2 d (mget Om i)) in N2.
  rewrite (nrm2_ext d (mget Om i) (fun l => (mget O1 i l + mget O2 i l) / 2)) in N1, N2 by auto.
  rewrite nrm2_mid in N1, N2.
  pose proof (nrm2_nonneg d (fun l => mget O1 i l - mget O2 i l)).
  assert (Z0 : nrm2 d (fun l => mget O1 i l - mget O2 i l) = 0) by lra.
  apply (bsum_nonneg_0 d _) with (i := j) in Z0; auto; [|intros; apply sq_nonneg]. apply sq_0 in Z0. lra.
Qed.

Lemma nth_repeat_in {A} (x d : A) n i : (i < n)%nat -> nth i (repeat x n) d = x.
Proof. intros H. apply nth_error_nth. now apply nth_error_repeat. Qed.

Lemma tikobj_repeat k d r D Z G O i : (i < r)%nat ->
  misfit k d D Z O i + tikpen d (nth i (repeat G r) []) O i = tikobj k d D Z (fun _ => G) O i.
Proof. intros H. unfold tikobj. now rewrite nth_repeat_in. Qed.

Lemma td_agrees lst slv s s' D Z G O O' :
  lstsq_spec lst (tk_opts s) -> lstsq_spec lst no_opts -> solve_spec slv -> tk_reach s -> td_reach s' ->
  tk_data s = Some (D, Z) -> td_data s' = Some (D, Z) -> tk_reg s = Some G -> td_reg s' = Some (repeat G (nrows Z)) ->
  is_mat (ncols D) (ncols D) G ->
  joint_injective (nrows D) (ncols D) D G \/ (tk_method s = MLstsq /\ td_method s' = MLstsq) ->
  tk_solve lst slv s = Ok O -> td_solve lst slv s' = Ok O' -> O = O'.
Proof.
  intros HL HL0 HS HR HR' HD HD' HG HG' HGm HC E E'.
  destruct (tk_solves lst slv s D Z G O HL HS HR HD HG HGm E) as (M1 & U1 & S1 & _).
  assert (HF : Forall (is_mat (ncols D) (ncols D)) (repeat G (nrows Z))).
  { apply Forall_forall. intros x Hx. apply repeat_spec in Hx. now subst. }
  destruct (td_solves lst slv s' D Z _ O' HL0 HS HR' HD' HG' (repeat_length _ _) HF E') as (M2 & U2 & S2 & _).
  set (k := nrows D) in *. set (d := ncols D) in *. set (r := nrows Z) in *.
  assert (EX : forall O i, (i < r)%nat -> misfit k d D Z O i + tikpen d (nth i (repeat G r) []) O i = misfit k d D Z O i + tikpen d G O i).
  { intros O0 i Hi. now rewrite nth_repeat_in. }
  apply (row_min_ext r d _ _ _ EX) in M2. destruct HC as [HI|[Hm1 Hm2]].
  - exact (agree_unique r d _ O O' M1 (U1 HI) M2).
  - apply (agree_shortest k d r D Z (fun _ => G) O O'); auto.
    intros Ox i HO Hi Hle. apply (S2 Hm2 Ox i HO Hi). now rewrite !EX.
Qed.

Lemma ld_agrees s s' lam p : l2_pre s = Some p -> ld_pre s' = Some p -> l2_reg s = Some lam -> ld_reg s' = Some (repeat lam (nrows (sp_Z p))) ->
  ld_solve s' = l2_solve s.
Proof. intros H1 H2 H3 H4. unfold ld_solve, l2_solve. now rewrite H1, H2, H3, H4. Qed.

Lemma mget_scaled_eye d lam a l : (a < d)%nat -> (l < d)%nat -> mget (mscale lam (eye d)) a l = dlt a l * lam.
Proof.
  intros Ha Hl. rewrite (mget_mscale d d) by apply is_mat_eye. rewrite mget_eye by auto. unfold dlt. destruct (Nat.eqb a l); ring.
Qed.
Lemma tikpen_eye d lam O i : tikpen d (mscale lam (eye d)) O i = ridge d lam O i.
Proof.
  unfold tikpen, ridge. rewrite <- bsum_scal_l. apply bsum_ext. intros a Ha.
  rewrite (bsum_ext d _ (fun l => dlt a l * (lam * mget O i l))) by (intros; rewrite mget_scaled_eye by auto; ring).
  rewrite bsum_dlt' by auto. unfold Rsqr. ring.
Qed.
Lemma l2_tk_agree svd lst slv s s' D Z lam O O' :
  svd_spec svd -> lstsq_spec lst (tk_opts s') -> solve_spec slv -> l2_reach svd s -> tk_reach s' ->
  odata (l2_pre s) = Some (D, Z) -> tk_data s' = Some (D, Z) -> l2_reg s = Some lam -> lam <> 0 ->
  tk_reg s' = Some (mscale lam (eye (ncols D))) ->
  l2_solve s = Ok O -> tk_solve lst slv s' = Ok O' -> O = O'.
Proof.
  intros HV HL HS HR HR' HD HD' HG Hn HG' E E'.
  destruct (l2_solves svd s D Z lam O HV HR HD HG E) as (M1 & U1 & _).
  destruct (tk_solves lst slv s' D Z _ O' HL HS HR' HD' HG' (is_mat_mscale _ _ _ _ (is_mat_eye _)) E') as (M2 & _).
  apply (agree_unique (nrows Z) (ncols D) _ O O' M1 (U1 Hn)).
  eapply row_min_ext; [|exact M2]. intros O0 i Hi. cbv beta. now rewrite tikpen_eye.
Qed.

(* ---- residuals ---- *)
Lemma is_mat_singleton d (o : vec) : length o = d -> is_mat 1 d [o].
Proof. intros H. split; auto. Qed.
Lemma shape_is_true r c A : (0 < r)%nat -> is_mat r c A -> shape_is r c A = true.
Proof. intros Hr H. unfold shape_is, nrows. rewrite (is_mat_len _ _ _ H), (ncols_is_mat _ _ _ H Hr), !Nat.eqb_refl. reflexivity. Qed.
Lemma shape_is_false r c r' c' A : (0 < r')%nat -> is_mat r' c' A -> (r', c') <> (r, c) -> shape_is r c A = false.
Proof.
  intros Hr H Hne. unfold shape_is, nrows. rewrite (is_mat_len _ _ _ H), (ncols_is_mat _ _ _ H Hr).
  destruct (Nat.eqb_spec r' r); destruct (Nat.eqb_spec c' c); subst; auto. now elim Hne.
Qed.

Lemma base_residual_ok D Z k d r O : dims D Z k d r -> is_mat r d O ->
  exists rs, base_residual (Some (D, Z)) (M O) = Ok rs /\ is_vec r rs /\ forall i, (i < r)%nat -> vget rs i = misfit k d D Z O i.
Proof.
  intros HDm HO. destruct (dims_eq _ _ _ _ _ HDm) as (Ek & Ed & Er). destruct HDm as (Hk & Hd & Hr & HD & HZ).
  unfold base_residual, check_ohat. rewrite Er, Ed, (shape_is_true r d O Hr HO). unfold bind.
  eexists. split; [reflexivity|].
  assert (HE : is_mat k r (msub (matmul D (mT O)) (mT Z))).
  { apply is_mat_msub; [eapply is_mat_matmul; eauto|]; now apply is_mat_mT. }
  assert (HEt : is_mat r k (mT (msub (matmul D (mT O)) (mT Z)))) by now apply is_mat_mT.
  split; [apply is_vec_map; apply HEt|].
  intros i Hi. unfold vget. rewrite (nth_map_in vnorm2 _ i 0 []) by (destruct HEt; lia).
  rewrite (vnorm2_bsum k) by (eapply is_mat_row; eauto). unfold misfit. apply bsum_ext. intros t Ht.
  assert (Et : vget (nth i (mT (msub (matmul D (mT O)) (mT Z))) []) t = bsum d (fun l => mget D t l * mget O i l) - mget Z i t).
  { change (mget (mT (msub (matmul D (mT O)) (mT Z))) i t = bsum d (fun l => mget D t l * mget O i l) - mget Z i t). rewrite (mget_mT k r) by auto.
    rewrite (mget_msub k r) by (first [now apply is_mat_mT | eapply is_mat_matmul; eauto; now apply is_mat_mT]).
    rewrite (mget_mT r k) by auto. rewrite (mget_matmul k d r) by (auto; now apply is_mat_mT).
    f_equal. apply bsum_ext. intros l Hl. now rewrite (mget_mT r d). }
  rewrite Et. reflexivity.
Qed.
(* a one-dimensional argument is accepted exactly when r = 1 and means the one-row matrix *)
Lemma base_residual_vec D Z k d r o : dims D Z k d r ->
  base_residual (Some (D, Z)) (V o) = if ((r =? 1) && (length o =? d))%nat then base_residual (Some (D, Z)) (M [o]) else Err DimensionalityError.
Proof.
  intros HDm. destruct (dims_eq _ _ _ _ _ HDm) as (Ek & Ed & Er).
  unfold base_residual, check_ohat. rewrite Er, Ed. destruct (Nat.eqb_spec r 1) as [->|]; [|reflexivity].
  cbn [andb]. unfold shape_is. cbn [nrows length ncols]. destruct (Nat.eqb_spec (length o) d); reflexivity.
Qed.
Lemma base_residual_bad D Z k d r O r' d' : dims D Z k d r -> (0 < r')%nat -> is_mat r' d' O -> (r', d') <> (r, d) ->
  base_residual (Some (D, Z)) (M O) = Err DimensionalityError.
Proof.
  intros HDm Hr HO Hne. destruct (dims_eq _ _ _ _ _ HDm) as (Ek & Ed & Er).
  unfold base_residual, check_ohat. rewrite Er, Ed, (shape_is_false r d r' d' O); auto.
Qed.

Lemma misfit_nonneg k d D Z O i : 0 <= misfit k d D Z O i.
Proof. rewrite misfit_lsq. apply lsq_nonneg. Qed.
Lemma ridge_nonneg d lam O i : 0 <= ridge d lam O i.
Proof. rewrite ridge_nrm2. pose proof (nrm2_nonneg d (mget O i)). assert (0 <= lam * lam) by apply Rle_0_sqr. nra. Qed.
Lemma tikpen_nonneg d G O i : 0 <= tikpen d G O i.
Proof. rewrite tikpen_lsq. apply lsq_nonneg. Qed.

Lemma rowsq_ok r d O : is_mat r d O -> is_vec r (rowsq (M O)) /\ forall i, (i < r)%nat -> vget (rowsq (M O)) i = bsum d (fun l => Rsqr (mget O i l)).
Proof.
  intros H. split; [apply is_vec_map; apply H|]. intros i Hi. unfold rowsq, vget. rewrite (nth_map_in vnorm2 O i 0 []) by (destruct H; lia).
  rewrite (vnorm2_bsum d) by (eapply is_mat_row; eauto). reflexivity.
Qed.
Lemma pre_ok_dims svd p k d r Phi : pre_ok svd p k d r Phi -> dims (sp_D p) (sp_Z p) k d r.
Proof. intros (Hk & Hd & Hr & HD & HZ & _). repeat split; auto; try apply HD; try apply HZ. Qed.

Lemma l2_regresidual_ok svd s D Z lam O : svd_spec svd -> l2_reach svd s -> odata (l2_pre s) = Some (D, Z) -> l2_reg s = Some lam ->
  is_mat (nrows Z) (ncols D) O ->
  exists rs, l2_regresidual s (M O) = Ok rs /\ is_vec (nrows Z) rs /\
    forall i, (i < nrows Z)%nat -> vget rs i = misfit (nrows D) (ncols D) D Z O i + ridge (ncols D) lam O i.
Proof.
  intros HS HR HD HL HO. destruct (l2_pre s) as [p|] eqn:Hp; [|discriminate].
  assert (HD' : sp_data p = (D, Z)) by (cbn in HD; congruence). apply pair_equal_spec in HD'. destruct HD' as [<- <-].
  destruct (l2_reach_ok svd s HS HR p Hp) as (k & d & r & Phi & HP).
  destruct (pre_dims _ _ _ _ _ _ HP) as (Ek & Ed & Er). rewrite Ek, Ed, Er in *.
  destruct (base_residual_ok _ _ k d r O (pre_ok_dims _ _ _ _ _ _ HP) HO) as (rs & E1 & V1 & G1).
  unfold l2_regresidual. rewrite Hp, HL. unfold bind, sp_data. rewrite E1. eexists. split; [reflexivity|].
  destruct (rowsq_ok r d O HO) as [V2 G2].
  assert (V3 : is_vec r (map (Rmult (lam * lam)) (rowsq (M O)))) by (apply is_vec_map; exact V2).
  split; [now apply is_vec_vadd|]. intros i Hi. rewrite (vget_vadd r) by auto. rewrite G1 by auto. f_equal.
  rewrite vget_map by (unfold is_vec in V2; lia). rewrite G2 by auto. reflexivity.
Qed.

Lemma vop_b_same f n u v : is_vec n u -> is_vec n v -> vop_b f u v = Ok (map2 f u v).
Proof. intros H1 H2. unfold vop_b. unfold is_vec in *. rewrite H1, H2, Nat.eqb_refl. reflexivity. Qed.

Lemma ld_regresidual_ok svd s D Z regs O : svd_spec svd -> ld_reach svd s -> odata (ld_pre s) = Some (D, Z) -> ld_reg s = Some regs ->
  length regs = nrows Z -> is_mat (nrows Z) (ncols D) O ->
  exists rs, ld_regresidual s (M O) = Ok rs /\ is_vec (nrows Z) rs /\
    forall i, (i < nrows Z)%nat -> vget rs i = misfit (nrows D) (ncols D) D Z O i + ridge (ncols D) (vget regs i) O i.
Proof.
  intros HS HR HD HL HLen HO. destruct (ld_pre s) as [p|] eqn:Hp; [|discriminate].
  assert (HD' : sp_data p = (D, Z)) by (cbn in HD; congruence). apply pair_equal_spec in HD'. destruct HD' as [<- <-].
  destruct (ld_reach_ok svd s HS HR p Hp) as (k & d & r & Phi & HP).
  destruct (pre_dims _ _ _ _ _ _ HP) as (Ek & Ed & Er). rewrite Ek, Ed, Er in *.
  destruct (base_residual_ok _ _ k d r O (pre_ok_dims _ _ _ _ _ _ HP) HO) as (rs & E1 & V1 & G1).
  destruct (rowsq_ok r d O HO) as [V2 G2].
  assert (V3 : is_vec r (map (fun x => x * x) regs)) by (apply is_vec_map; exact HLen).
  unfold ld_regresidual. rewrite Hp, HL. unfold bind, sp_data. rewrite E1, (vop_b_same Rmult r) by auto.
  assert (V4 : is_vec r (map2 Rmult (map (fun x => x * x) regs) (rowsq (M O)))) by now apply is_vec_vmul.
  rewrite (vop_b_same Rplus r) by auto. eexists. split; [reflexivity|]. split; [now apply is_vec_vadd|].
  intros i Hi. change (vget (vadd rs (vmul (map (fun x => x * x) regs) (rowsq (M O)))) i = misfit k d (sp_D p) (sp_Z p) O i + ridge d (vget regs i) O i).
  rewrite (vget_vadd r), (vget_vmul r) by auto. rewrite G1, G2 by auto. rewrite vget_map by lia. reflexivity.
Qed.

Lemma tk_regresidual_ok s D Z G O : tk_reach s -> tk_data s = Some (D, Z) -> tk_reg s = Some G -> is_mat (ncols D) (ncols D) G ->
  is_mat (nrows Z) (ncols D) O ->
  exists rs, tk_regresidual s (M O) = Ok rs /\ is_vec (nrows Z) rs /\
    forall i, (i < nrows Z)%nat -> vget rs i = misfit (nrows D) (ncols D) D Z O i + tikpen (ncols D) G O i.
Proof.
  intros HR HD HG HGm HO. destruct (tk_reach_ok s HR D Z HD) as (Hp & k & d & r & HDm).
  pose proof (dims_eq _ _ _ _ _ HDm) as (Ek & Ed & Er). rewrite Ek, Ed, Er in *.
  destruct (base_residual_ok _ _ k d r O HDm HO) as (rs & E1 & V1 & G1).
  destruct HDm as (Hk & Hd & Hr & HDD & HZZ).
  unfold tk_regresidual. rewrite HD, HG. unfold bind. rewrite E1. unfold check_ohat. rewrite Er, Ed, (shape_is_true r d O Hr HO).
  assert (HOt : is_mat d r (mT O)) by now apply is_mat_mT.
  unfold matmul_r. rewrite (ncols_is_mat _ _ _ HGm Hd). unfold nrows. rewrite (is_mat_len _ _ _ HOt), Nat.eqb_refl.
  eexists. split; [reflexivity|].
  assert (HGO : is_mat d r (matmul G (mT O))) by (eapply is_mat_matmul; eauto).
  assert (HGOt : is_mat r d (mT (matmul G (mT O)))) by now apply is_mat_mT.
  assert (V3 : is_vec r (map vnorm2 (mT (matmul G (mT O))))) by (apply is_vec_map; apply HGOt).
  split; [now apply is_vec_vadd|]. intros i Hi. rewrite (vget_vadd r) by auto. rewrite G1 by auto. f_equal.
  unfold vget. rewrite (nth_map_in vnorm2 _ i 0 []) by (destruct HGOt; lia).
  rewrite (vnorm2_bsum d) by (eapply is_mat_row; eauto). unfold tikpen. apply bsum_ext. intros a Ha.
  assert (Et : vget (nth i (mT (matmul G (mT O))) []) a = bsum d (fun l => mget G a l * mget O i l)).
  { change (mget (mT (matmul G (mT O))) i a = bsum d (fun l => mget G a l * mget O i l)). rewrite (mget_mT d r) by auto. rewrite (mget_matmul d d r) by auto.
    apply bsum_ext. intros l Hl. now rewrite (mget_mT r d). }
  rewrite Et. reflexivity.
Qed.

Lemma td_regresidual_ok s D Z Gs O : td_reach s -> td_data s = Some (D, Z) -> td_reg s = Some Gs -> length Gs = nrows Z ->
  Forall (is_mat (ncols D) (ncols D)) Gs -> is_mat (nrows Z) (ncols D) O ->
  exists rs, td_regresidual s (M O) = Ok rs /\ is_vec (nrows Z) rs /\
    forall i, (i < nrows Z)%nat -> vget rs i = misfit (nrows D) (ncols D) D Z O i + tikpen (ncols D) (nth i Gs []) O i.
Proof.
  intros HR HD HG HLen HGm HO. destruct (td_reach_ok s HR D Z HD) as (Hp & k & d & r & HDm).
  pose proof (dims_eq _ _ _ _ _ HDm) as (Ek & Ed & Er). rewrite Ek, Ed, Er in *.
  destruct (base_residual_ok _ _ k d r O HDm HO) as (rs & E1 & V1 & G1).
  destruct HDm as (Hk & Hd & Hr & HDD & HZZ).
  unfold td_regresidual. rewrite HD, HG. unfold bind. rewrite E1.
  destruct (mapM_ok (fun Go : mat * vec => match matvec_r (fst Go) (snd Go) with Ok w => Ok (vnorm2 w) | Err e => Err e end) (combine Gs O)) as [pen EP].
  { intros [G o] Hx. cbn [fst snd]. assert (In G Gs) by (eapply in_combine_l; eauto). assert (In o O) by (eapply in_combine_r; eauto).
    unfold matvec_r. rewrite (ncols_is_mat d d) by (auto; rewrite Forall_forall in HGm; auto).
    destruct HO as [_ HOf]. rewrite Forall_forall in HOf. rewrite (HOf o) by auto. rewrite Nat.eqb_refl. eauto. }
  rewrite EP. apply mapM_nth in EP. destruct EP as [EPL EPN].
  assert (Lc : length (combine Gs O) = r) by (rewrite combine_length; destruct HO; lia).
  assert (V2 : is_vec r pen) by (unfold is_vec; lia).
  rewrite (vop_b_same Rplus r) by auto. eexists. split; [reflexivity|]. split; [now apply is_vec_vadd|].
  intros i Hi. change (vget (vadd rs pen) i = misfit k d D Z O i + tikpen d (nth i Gs []) O i).
  rewrite (vget_vadd r) by auto. rewrite G1 by auto. f_equal.
  specialize (EPN i ([], []) 0 ltac:(lia)). rewrite combine_nth in EPN by (destruct HO; lia). cbn [fst snd] in EPN.
  assert (HGi : is_mat d d (nth i Gs [])) by (apply (proj1 (Forall_nth _ Gs) HGm); lia).
  unfold matvec_r in EPN. rewrite (ncols_is_mat _ _ _ HGi Hd), (is_mat_row r d O i HO Hi), Nat.eqb_refl in EPN.
  injection EPN as EPN. unfold vget. rewrite <- EPN.
  rewrite (vnorm2_bsum d) by (eapply is_vec_matvec; eauto). unfold tikpen. apply bsum_ext. intros a Ha.
  rewrite (vget_matvec d d) by (auto; eapply is_mat_row; eauto). reflexivity.
Qed.
