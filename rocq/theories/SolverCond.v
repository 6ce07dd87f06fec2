(* SolverCond.v -- regcond() of the L2 solvers (C58) *)
From Verif Require Export SolverReg.
#[local] Open Scope R_scope.

Lemma stretch_sve k d phi s psi x : onf k d phi -> onf d d psi ->
  bsum k (fun t => Rsqr (bsum d (fun l => sve d phi s psi t l * x l))) = bsum d (fun a => s a * s a * Rsqr (ip d (psi a) x)).
Proof.
  intros Hp Hq. transitivity (ip k (comb d (fun a => s a * ip d (psi a) x) phi) (comb d (fun a => s a * ip d (psi a) x) phi)).
  - unfold ip at 1. apply bsum_ext. intros t Ht. unfold Rsqr.
    assert (E : bsum d (fun l => sve d phi s psi t l * x l) = comb d (fun a => s a * ip d (psi a) x) phi t).
    { unfold sve, comb, ip. rewrite (bsum_ext d _ (fun l => bsum d (fun i => s i * phi i t * (psi i l * x l)))).
      - rewrite bsum_swap. apply bsum_ext. intros a Ha. rewrite bsum_scal_l. ring.
      - intros l Hl. rewrite <- bsum_scal_r. apply bsum_ext. intros; ring. }
    rewrite E. reflexivity.
  - rewrite ip_comb2 by auto. apply bsum_ext. intros. unfold Rsqr. ring.
Qed.
Lemma parseval d psi x : onf d d psi -> bsum d (fun l => Rsqr (x l)) = bsum d (fun a => Rsqr (ip d (psi a) x)).
Proof.
  intros Hq. pose proof (onf_square d psi Hq) as HS.
  transitivity (bsum d (fun t => bsum d (fun u => bsum d (fun j => psi j t * psi j u) * (x t * x u)))).
  - apply bsum_ext. intros t Ht. rewrite (bsum_ext d _ (fun u => dlt t u * (x t * x u))) by (intros u Hu; rewrite HS by auto; reflexivity).
    rewrite bsum_dlt' by auto. unfold Rsqr. ring.
  - rewrite (bsum_ext d _ (fun t => bsum d (fun j => psi j t * x t * ip d (psi j) x))).
    + rewrite bsum_swap. apply bsum_ext. intros j Hj. rewrite bsum_scal_r. unfold Rsqr. unfold ip at 3. ring.
    + intros t Ht. rewrite (bsum_ext d _ (fun u => bsum d (fun j => psi j t * x t * (psi j u * x u)))).
      * rewrite bsum_swap. apply bsum_ext. intros j Hj. rewrite bsum_scal_l. reflexivity.
      * intros u Hu. rewrite <- bsum_scal_r. apply bsum_ext. intros; ring.
Qed.
Lemma svals_regcond svd p k d r Phi lam a b : svd_spec svd -> pre_ok svd p k d r Phi -> (d <= k)%nat ->
  rmax (map (fun x => x * x + lam * lam) (sp_svals p)) = Ok a -> rmin (map (fun x => x * x + lam * lam) (sp_svals p)) = Ok b -> b <> 0 ->
  condition_number k d (sp_D p) lam (sqrt (a / b)).
Proof.
  intros HV HP Hdk Ea Eb Hb. destruct HP as (Hk & Hd & Hr & HmD & HmZ & HS & HZ).
  destruct (svd_fun svd k d (sp_D p) Phi (sp_svals p) (sp_PsiT p) HV Hk Hd HmD HS) as (HPhi & Hs & HPsi & Hop & Hoq & Hpos & Hord & HD).
  replace (Nat.min k d) with d in * by lia. cbn zeta in *.
  assert (HST : forall x, stretch2 k d (sp_D p) lam x = bsum d (fun i => (vget (sp_svals p) i * vget (sp_svals p) i + lam * lam) * Rsqr (ip d (psiF (sp_PsiT p) i) (vget x)))).
  { intros x. unfold stretch2. rewrite (parseval d (psiF (sp_PsiT p)) (vget x)) by auto.
    rewrite (bsum_ext k _ (fun t => Rsqr (bsum d (fun l => sve d (phiF Phi) (vget (sp_svals p)) (psiF (sp_PsiT p)) t l * vget x l)))).
    2:{ intros t Ht. f_equal. apply bsum_ext. intros l Hl. rewrite HD by auto. reflexivity. }
    rewrite stretch_sve by auto. rewrite <- bsum_scal_l, <- bsum_plus. apply bsum_ext. intros; ring. }
  apply PreStats.vmax_ok in Ea. apply PreStats.vmin_ok in Eb. destruct Ea as [Ia Ma]. destruct Eb as [Ib Mb].
  assert (HIn : forall i, (i < d)%nat -> In (vget (sp_svals p) i * vget (sp_svals p) i + lam * lam) (map (fun x => x * x + lam * lam) (sp_svals p))).
  { intros i Hi. apply (in_map (fun x => x * x + lam * lam)). unfold vget. apply nth_In. unfold is_vec in Hs. lia. }
  assert (Hb0 : 0 < b).
  { apply in_map_iff in Ib. destruct Ib as (y & Ey & _). pose proof (Rle_0_sqr y). pose proof (Rle_0_sqr lam). unfold Rsqr in *. lra. }
  assert (Hatt : forall v, In v (map (fun x => x * x + lam * lam) (sp_svals p)) -> exists x, unit_vec d x /\ stretch2 k d (sp_D p) lam x = v).
  { intros v Iv. apply in_map_iff in Iv. destruct Iv as (y & <- & Iy). apply (In_nth _ _ 0) in Iy. destruct Iy as (i & Hi & <-). unfold is_vec in Hs. rewrite Hs in Hi.
    exists (nth i (sp_PsiT p) []).
    assert (Hip : forall j, (j < d)%nat -> ip d (psiF (sp_PsiT p) j) (vget (nth i (sp_PsiT p) [])) = dlt j i).
    { intros j Hj. change (vget (nth i (sp_PsiT p) [])) with (psiF (sp_PsiT p) i). apply Hoq; auto. }
    split.
    - split; [exact (is_mat_row _ _ _ _ HPsi Hi)|]. change (ip d (psiF (sp_PsiT p) i) (vget (nth i (sp_PsiT p) [])) = 1).
      rewrite Hip by auto. unfold dlt. now rewrite Nat.eqb_refl.
    - rewrite HST. rewrite (bsum_ext d _ (fun j => dlt j i * (vget (sp_svals p) j * vget (sp_svals p) j + lam * lam))).
      + rewrite bsum_dlt by auto. reflexivity.
      + intros j Hj. rewrite Hip by auto. unfold dlt. destruct (j =? i)%nat; unfold Rsqr; ring. }
  exists a, b. split; [exact Hb0|]. split; [|split; [|split; [|split]]].
  - intros x (Hx & Hn). rewrite (parseval d (psiF (sp_PsiT p)) (vget x)) in Hn by auto. rewrite HST.
    replace b with (b * bsum d (fun i => Rsqr (ip d (psiF (sp_PsiT p) i) (vget x)))) by (rewrite Hn; ring).
    replace a with (a * bsum d (fun i => Rsqr (ip d (psiF (sp_PsiT p) i) (vget x)))) by (rewrite Hn; ring).
    rewrite <- !bsum_scal_l. split; apply bsum_le; intros i Hi; apply Rmult_le_compat_r; try apply Rle_0_sqr; auto.
  - apply Hatt, Ia.
  - apply Hatt, Ib.
  - apply sqrt_pos.
  - apply sqrt_sqrt. assert (b <= a) by (apply Mb, Ia). apply Rmult_le_pos; [lra|]. left. now apply Rinv_0_lt_compat.
Qed.
Lemma l2_regcond_ok svd s D Z lam c : svd_spec svd -> l2_reach svd s -> odata (l2_pre s) = Some (D, Z) -> l2_reg s = Some lam ->
  (ncols D <= nrows D)%nat -> l2_regcond s = Ok c -> condition_number (nrows D) (ncols D) D lam c.
Proof.
  intros HV HR HD Hlam Hdk E. unfold l2_regcond in E. unfold odata in HD. destruct (l2_pre s) as [p|] eqn:EP; [|discriminate].
  rewrite Hlam in E. destruct (l2_reach_ok svd s HV HR p EP) as (k & d & r & Phi & HP). unfold sp_data in HD. injection HD as <- <-.
  destruct (pre_dims _ _ _ _ _ _ HP) as (Ek & Ed & Er). rewrite Ek, Ed in *. cbn zeta in E.
  destruct (rmax _) as [a|] eqn:Ea; [|discriminate]. cbn [bind] in E. destruct (rmin _) as [b|] eqn:Eb; [|discriminate]. cbn [bind] in E.
  destruct (Req_EM_T b 0) as [|Hb]; [discriminate|]. injection E as <-. eapply svals_regcond; eauto.
Qed.
Lemma ld_regcond_ok svd s D Z regs cs : svd_spec svd -> ld_reach svd s -> odata (ld_pre s) = Some (D, Z) -> ld_reg s = Some regs ->
  (ncols D <= nrows D)%nat -> ld_regcond s = Ok cs ->
  length cs = length regs /\ forall i, (i < length regs)%nat -> condition_number (nrows D) (ncols D) D (vget regs i) (vget cs i).
Proof.
  intros HV HR HD Hlam Hdk E. unfold ld_regcond in E. unfold odata in HD. destruct (ld_pre s) as [p|] eqn:EP; [|discriminate].
  rewrite Hlam in E. destruct (ld_reach_ok svd s HV HR p EP) as (k & d & r & Phi & HP). unfold sp_data in HD. injection HD as <- <-.
  destruct (pre_dims _ _ _ _ _ _ HP) as (Ek & Ed & Er). rewrite Ek, Ed in *.
  apply mapM_nth in E. destruct E as [EL E]. split; [exact EL|]. intros i Hi. specialize (E i 0 0 Hi). cbn zeta in E. fold (vget regs i) in E. fold (vget cs i) in E.
  destruct (rmax _) as [a|] eqn:Ea; [|discriminate]. cbn [bind] in E. destruct (rmin _) as [b|] eqn:Eb; [|discriminate]. cbn [bind] in E.
  destruct (Req_EM_T b 0) as [|Hb]; [discriminate|]. injection E as <-. eapply svals_regcond; eauto.
Qed.
Lemma wide_reach : l2_reach svdE {| l2_reg := Some 1; l2_pre := Some {| sp_D := [[1; 0]]; sp_Z := [[1]]; sp_svals := [1]; sp_ZPhi := matmul [[1]] [[1]]; sp_PsiT := [[1; 0]] |} |}.
Proof.
  apply (l2r_fit svdE (fst (l2_set {| l2_reg := None; l2_pre := None |} (RScalar 1))) (M [[1; 0]]) (M [[1]])).
  - apply l2r_reg, l2r_new.
  - apply (good_mat 1 2); try lia. split; repeat constructor.
  - apply good_1x1.
  - cbn [l2_set]. destruct (Rlt_dec 1 0) as [|_]; [lra|]. unfold l2_fit, svd_fit, base_fit. cbn [fst ncols nrows atleast_2d length hd Nat.eqb bind snd l2_reg].
    unfold svdE. destruct (meq _ (eye 1)) as [K|_]; [discriminate|]. destruct (meq _ (eye 2)) as [K|_]; [discriminate|].
    destruct (meq _ D32) as [K|_]; [discriminate|]. rewrite meq_refl. reflexivity.
Qed.
(* with fewer rows than columns the reported number is not the condition number *)
Lemma l2_regcond_refuted : exists svd s D Z lam c, svd_spec svd /\ l2_reach svd s /\ odata (l2_pre s) = Some (D, Z) /\ l2_reg s = Some lam /\
  l2_regcond s = Ok c /\ ~ condition_number (nrows D) (ncols D) D lam c.
Proof.
  exists svdE. eexists. exists [[1; 0]], [[1]], 1. eexists. split; [apply svdE_spec|]. split; [apply wide_reach|].
  split; [reflexivity|]. split; [reflexivity|]. cbn [l2_regcond l2_pre l2_reg].
  split. { cbn. destruct (Req_EM_T _ 0) as [K|_]; [lra|]. reflexivity. }
  replace (_ / _) with 1 by (field; lra). rewrite sqrt_1. intros (hi & lo & Hlo & HB & _ & _ & _ & Hc).
  assert (hi = lo). { assert (E : hi / lo * lo = hi) by (field; lra). rewrite <- Hc in E. lra. } subst hi.
  assert (U1 : unit_vec 2 [1; 0]) by (split; [reflexivity|cbn; unfold Rsqr; lra]).
  assert (U2 : unit_vec 2 [0; 1]) by (split; [reflexivity|cbn; unfold Rsqr; lra]).
  pose proof (HB _ U1) as B1. pose proof (HB _ U2) as B2. revert B1 B2. unfold stretch2. cbn. unfold Rsqr. lra.
Qed.

(* ---- lemmas in the form of the property file ---- *)
Lemma opdim_width c r m : opdim (proto c) r m = class_width r m c.
Proof. destruct c as [| |[]| |]; reflexivity. Qed.
Lemma regop_dims_width ops r m dims : mapM (regop_dim r m) ops = Ok dims -> dims = map (regop_width r m) ops.
Proof.
  revert dims. induction ops as [|o ops IH]; cbn [mapM map]; intros dims E; [injection E as <-; reflexivity|].
  destruct (regop_dim r m o) as [w|] eqn:Ew; [|discriminate]. destruct (mapM (regop_dim r m) ops) as [l|]; [|discriminate].
  injection E as <-. f_equal; [|now apply IH]. destruct o as [c|a|c]; cbn in Ew; try discriminate; injection Ew as <-; cbn; unfold aff_opdim; now rewrite opdim_width.
Qed.
Lemma regularizer_penalty ops params r m v : get_operator_regularizer ops params r m = Ok v ->
  let ws := map (regop_width r m) ops in let d := lsumn ws in
  length params = length ops /\ is_vec d v /\
  (forall O i, tikpen d (mdiag v) O i
    = bsum (length ops) (fun b => vget params b * vget params b * bsum (nth b ws 0%nat) (fun j => Rsqr (mget O i (lsumn (firstn b ws) + j))))) /\
  (forall b j, (b < length ops)%nat -> (j < nth b ws 0)%nat -> vget v (lsumn (firstn b ws) + j) = vget params b).
Proof.
  intros E. cbn zeta. destruct (get_reg_ok _ _ _ _ _ E) as (dims & EM & EL & EP & Ev).
  pose proof (regop_dims_width _ _ _ _ EM) as ED. rewrite <- ED.
  destruct (get_reg_penalty _ _ _ _ _ E) as (dims' & HF & _ & HV & HP).
  assert (dims' = dims).
  { clear - HF EM. revert dims EM. induction HF as [|o w ops' ds Hw HF IH]; cbn [mapM]; intros dims EM; [injection EM as <-; reflexivity|].
    rewrite Hw in EM. destruct (mapM (regop_dim r m) ops') as [l|]; [|discriminate]. injection EM as <-. f_equal. now apply IH. }
  subst dims'. split; [exact EP|]. split; [exact HV|]. split; [exact HP|]. intros b j Hb Hj. rewrite Ev. apply spread_get; lia.
Qed.
Definition letter_cls (l : letter) : cls := match l with Lc => CConst | LA => CLin | LH => CPoly Quadratic | LG => CPoly Cubic | LB => CInp end.
Lemma lstsq_size_ok form r m aff : 
  (In LB form <-> m <> 0%nat) ->
  lstsq_size form r m aff = Ok (lsumn (map (fun l => class_width r m (letter_cls l) * match aff l with Some n => n | None => 1 end)%nat form)).
Proof.
  intros HB. unfold lstsq_size.
  assert (EB : existsb (letter_eqb LB) form = negb (m =? 0)%nat).
  { destruct (Nat.eqb_spec m 0) as [Hm|Hm]; cbn [negb].
    - apply not_true_is_false. intros T. apply existsb_exists in T. destruct T as (l & Hl & K). destruct l; try discriminate. tauto.
    - apply existsb_exists. exists LB. tauto. }
  rewrite EB. destruct (m =? 0)%nat eqn:Em; cbn [negb andb]; do 2 f_equal; apply map_ext; intros []; reflexivity.
Qed.
Lemma lstsq_size_bad form r m aff : ~ (In LB form <-> m <> 0%nat) -> lstsq_size form r m aff = Err ValueError.
Proof.
  intros HB. unfold lstsq_size. destruct (existsb (letter_eqb LB) form) eqn:EB; destruct (Nat.eqb_spec m 0) as [Hm|Hm]; cbn [negb andb]; auto; elim HB; split; try congruence; intros K.
  - apply existsb_exists in EB. destruct EB as (l & Hl & T). destruct l; try discriminate. exact Hl.
  - exfalso. assert (T : existsb (letter_eqb LB) form = true) by (apply existsb_exists; exists LB; auto). congruence.
Qed.

(* what fit() records *)
Lemma fits_record :
  (forall svd s D Z s', svd_spec svd -> good_arr D -> good_arr Z -> l2_fit svd s D Z = Ok s' ->
     exists D', D = M D' /\ odata (l2_pre s') = Some (D', atleast_2d Z) /\ l2_reg s' = l2_reg s) /\
  (forall svd s D Z, svd_spec svd -> good_arr D -> good_arr Z -> snd (ld_fit svd s D Z) = Ok tt ->
     exists D', D = M D' /\ odata (ld_pre (fst (ld_fit svd s D Z))) = Some (D', atleast_2d Z) /\ ld_reg (fst (ld_fit svd s D Z)) = ld_reg s) /\
  (forall s D Z s', good_arr D -> good_arr Z -> tk_fit s D Z = (s', Ok tt) ->
     exists D', D = M D' /\ tk_data s' = Some (D', atleast_2d Z) /\ tk_reg s' = tk_reg s) /\
  (forall s D Z s', good_arr D -> good_arr Z -> td_fit s D Z = (s', Ok tt) ->
     exists D', D = M D' /\ td_data s' = Some (D', atleast_2d Z) /\ td_reg s' = td_reg s).
Proof.
  split; [|split; [|split]].
  - intros svd s D Z s' HV HD HZ E. unfold l2_fit in E. destruct (svd_fit svd D Z) as [p|] eqn:EF; [|discriminate]. injection E as <-.
    destruct (svd_fit_ok svd D Z p HD HZ HV EF) as (-> & EZ & _). exists (sp_D p). split; [reflexivity|]. cbn. unfold sp_data. rewrite EZ. auto.
  - intros svd s D Z HV HD HZ E. unfold ld_fit in *. destruct (svd_fit svd D Z) as [p|] eqn:EF; [|discriminate].
    destruct (svd_fit_ok svd D Z p HD HZ HV EF) as (-> & EZ & _). exists (sp_D p). split; [reflexivity|]. cbn. unfold sp_data. rewrite EZ. auto.
  - intros s D Z s' HD HZ E. unfold tk_fit in E. destruct (base_fit D Z) as [[D' Z']|] eqn:EF; [|discriminate].
    destruct (base_fit_ok _ _ _ _ HD HZ EF) as (-> & -> & _). exists D'. split; [reflexivity|].
    destruct (match tk_reg s with Some G => _ | None => _ end); [|discriminate]. apply pair_equal_spec in E. destruct E as [<- _]. auto.
  - intros s D Z s' HD HZ E. unfold td_fit in E. destruct (base_fit D Z) as [[D' Z']|] eqn:EF; [|discriminate].
    destruct (base_fit_ok _ _ _ _ HD HZ EF) as (-> & -> & _). exists D'. split; [reflexivity|].
    destruct (match td_reg s with Some G => _ | None => _ end); [|discriminate]. apply pair_equal_spec in E. destruct E as [<- _]. auto.
Qed.
(* solving before fitting or without a regularizer *)
Lemma unready :
  (forall lst s, pl_data s = None -> plain_solve lst s = Err AttributeError) /\
  (forall s, l2_pre s = None \/ l2_reg s = None -> l2_solve s = Err AttributeError) /\
  (forall s, ld_pre s = None \/ ld_reg s = None -> ld_solve s = Err AttributeError) /\
  (forall lst slv s, tk_data s = None \/ tk_reg s = None -> tk_solve lst slv s = Err AttributeError) /\
  (forall lst slv s, td_data s = None \/ td_reg s = None -> td_solve lst slv s = Err AttributeError) /\
  (forall s, ts_pre s = None -> ts_solve s = Err AttributeError) /\ (forall s, tl_data s = None -> tls_solve s = Err AttributeError).
Proof.
  split; [intros lst s H; unfold plain_solve; now rewrite H|]. split; [intros s [H|H]; unfold l2_solve; rewrite H; [reflexivity|now destruct (l2_pre s)]|].
  split; [intros s [H|H]; unfold ld_solve; rewrite H; [reflexivity|now destruct (ld_pre s)]|].
  split; [intros lst slv s [H|H]; unfold tk_solve; rewrite H; [reflexivity|now destruct (tk_data s) as [[]|]]|].
  split; [intros lst slv s [H|H]; unfold td_solve; rewrite H; [reflexivity|now destruct (td_data s) as [[]|]]|].
  split; [intros s H; unfold ts_solve; now rewrite H|intros s H; unfold tls_solve; now rewrite H].
Qed.
(* regresidual of the solution is the smallest *)
Lemma regresidual_least :
  (forall svd s D Z lam O O' rs rs' i, svd_spec svd -> l2_reach svd s -> odata (l2_pre s) = Some (D, Z) -> l2_reg s = Some lam ->
     l2_solve s = Ok O -> is_mat (nrows Z) (ncols D) O' -> l2_regresidual s (M O) = Ok rs -> l2_regresidual s (M O') = Ok rs' -> (i < nrows Z)%nat ->
     0 <= vget rs i <= vget rs' i) /\
  (forall svd s D Z regs O O' rs rs' i, svd_spec svd -> ld_reach svd s -> odata (ld_pre s) = Some (D, Z) -> ld_reg s = Some regs -> length regs = nrows Z ->
     ld_solve s = Ok O -> is_mat (nrows Z) (ncols D) O' -> ld_regresidual s (M O) = Ok rs -> ld_regresidual s (M O') = Ok rs' -> (i < nrows Z)%nat ->
     0 <= vget rs i <= vget rs' i) /\
  (forall lst slv s D Z G O O' rs rs' i, lstsq_spec lst (tk_opts s) -> solve_spec slv -> tk_reach s -> tk_data s = Some (D, Z) -> tk_reg s = Some G ->
     is_mat (ncols D) (ncols D) G -> tk_solve lst slv s = Ok O -> is_mat (nrows Z) (ncols D) O' ->
     tk_regresidual s (M O) = Ok rs -> tk_regresidual s (M O') = Ok rs' -> (i < nrows Z)%nat -> 0 <= vget rs i <= vget rs' i) /\
  (forall lst slv s D Z Gs O O' rs rs' i, lstsq_spec lst no_opts -> solve_spec slv -> td_reach s -> td_data s = Some (D, Z) -> td_reg s = Some Gs ->
     length Gs = nrows Z -> Forall (is_mat (ncols D) (ncols D)) Gs -> td_solve lst slv s = Ok O -> is_mat (nrows Z) (ncols D) O' ->
     td_regresidual s (M O) = Ok rs -> td_regresidual s (M O') = Ok rs' -> (i < nrows Z)%nat -> 0 <= vget rs i <= vget rs' i).
Proof.
  split; [|split; [|split]].
  - intros svd s D Z lam O O' rs rs' i HV HR HD HL ES HO' E E' Hi. destruct (l2_solves svd s D Z lam O HV HR HD HL ES) as ((HO & HM) & _).
    destruct (l2_regresidual_ok svd s D Z lam O HV HR HD HL HO) as (q & Eq & _ & Hq). destruct (l2_regresidual_ok svd s D Z lam O' HV HR HD HL HO') as (q' & Eq' & _ & Hq').
    rewrite Eq in E. rewrite Eq' in E'. injection E as <-. injection E' as <-. rewrite Hq, Hq' by auto. split; [|apply HM; auto].
    apply Rplus_le_le_0_compat; [apply misfit_nonneg|apply ridge_nonneg].
  - intros svd s D Z regs O O' rs rs' i HV HR HD HL HLL ES HO' E E' Hi. destruct (ld_solves svd s D Z regs O HV HR HD HL HLL ES) as ((HO & HM) & _).
    destruct (ld_regresidual_ok svd s D Z regs O HV HR HD HL HLL HO) as (q & Eq & _ & Hq). destruct (ld_regresidual_ok svd s D Z regs O' HV HR HD HL HLL HO') as (q' & Eq' & _ & Hq').
    rewrite Eq in E. rewrite Eq' in E'. injection E as <-. injection E' as <-. rewrite Hq, Hq' by auto. split; [|apply HM; auto].
    apply Rplus_le_le_0_compat; [apply misfit_nonneg|apply ridge_nonneg].
  - intros lst slv s D Z G O O' rs rs' i HV HS HR HD HL HG ES HO' E E' Hi. destruct (tk_solves lst slv s D Z G O HV HS HR HD HL HG ES) as ((HO & HM) & _).
    destruct (tk_regresidual_ok s D Z G O HR HD HL HG HO) as (q & Eq & _ & Hq). destruct (tk_regresidual_ok s D Z G O' HR HD HL HG HO') as (q' & Eq' & _ & Hq').
    rewrite Eq in E. rewrite Eq' in E'. injection E as <-. injection E' as <-. rewrite Hq, Hq' by auto. split; [|apply HM; auto].
    apply Rplus_le_le_0_compat; [apply misfit_nonneg|apply tikpen_nonneg].
  - intros lst slv s D Z Gs O O' rs rs' i HV HS HR HD HL HLL HG ES HO' E E' Hi. destruct (td_solves lst slv s D Z Gs O HV HS HR HD HL HLL HG ES) as ((HO & HM) & _).
    destruct (td_regresidual_ok s D Z Gs O HR HD HL HLL HG HO) as (q & Eq & _ & Hq). destruct (td_regresidual_ok s D Z Gs O' HR HD HL HLL HG HO') as (q' & Eq' & _ & Hq').
    rewrite Eq in E. rewrite Eq' in E'. injection E as <-. injection E' as <-. rewrite Hq, Hq' by auto. split; [|apply HM; auto].
    apply Rplus_le_le_0_compat; [apply misfit_nonneg|apply tikpen_nonneg].
Qed.
(* posteriors raise when some residual is below machine precision *)
Lemma l2_posterior_small svd s D Z lam O i : svd_spec svd -> l2_reach svd s -> odata (l2_pre s) = Some (D, Z) -> l2_reg s = Some lam -> l2_solve s = Ok O ->
  (i < nrows Z)%nat -> misfit (nrows D) (ncols D) D Z O i + ridge (ncols D) lam O i < eps -> l2_posterior s = Err RuntimeError.
Proof.
  intros HV HR HD HL ES Hi Hs. unfold l2_posterior. rewrite ES. cbn [bind]. destruct (l2_solves svd s D Z lam O HV HR HD HL ES) as ((HO & HM) & _).
  destruct (l2_regresidual_ok svd s D Z lam O HV HR HD HL HO) as (q & Eq & HLq & Hq). rewrite Eq, HL. destruct (l2_pre s); [|discriminate]. cbn [bind].
  rewrite (check_sigmas_small q (vget q i)); [reflexivity| |rewrite Hq by auto; exact Hs]. unfold vget. apply nth_In. unfold is_vec in HLq. lia.
Qed.
(* TikhonovDecoupledSolver.regresidual with a one-dimensional argument *)
Lemma td_regresidual_1d s o : raises (td_regresidual s (V o)).
Proof.
  unfold td_regresidual. destruct (td_data s) as [[D Z]|]; [|eexists; reflexivity]. destruct (td_reg s); [|eexists; reflexivity].
  destruct (base_residual _ _); cbn; eexists; reflexivity.
Qed.
Lemma td_regresidual_1d_refuted : exists s D Z o rs, td_reach s /\ td_data s = Some (D, Z) /\ nrows Z = 1%nat /\ length o = ncols D /\
  base_residual (td_data s) (V o) = Ok rs /\ raises (td_regresidual s (V o)).
Proof.
  exists (td1 MNormal), [[1]], [[1]], [1]. eexists. split; [apply td1_reach|]. do 4 (split; [reflexivity|]). apply td_regresidual_1d.
Qed.
Lemma regresidual_1d :
  (forall svd s D Z lam o, svd_spec svd -> l2_reach svd s -> odata (l2_pre s) = Some (D, Z) -> l2_reg s = Some lam -> nrows Z = 1%nat -> length o = ncols D ->
    l2_regresidual s (V o) = l2_regresidual s (M [o])) /\
  (forall s D Z G o, tk_reach s -> tk_data s = Some (D, Z) -> tk_reg s = Some G -> nrows Z = 1%nat -> length o = ncols D ->
    tk_regresidual s (V o) = tk_regresidual s (M [o])).
Proof.
  split.
  - intros svd s D Z lam o HV HR HD HL H1 Ho. unfold l2_regresidual. unfold odata in HD. destruct (l2_pre s) as [p|] eqn:EP; [|discriminate]. rewrite HL.
    destruct (l2_reach_ok svd s HV HR p EP) as (k & d & r & Phi & HP). pose proof (pre_ok_dims _ _ _ _ _ _ HP) as HDm. injection HD as HD1 HD2.
    destruct (dims_eq _ _ _ _ _ HDm) as (Ek & Ed & Er). rewrite HD1, HD2 in *. unfold sp_data. rewrite HD1, HD2.
    rewrite (base_residual_vec D Z k d r o HDm). rewrite <- Er, <- Ed, H1, Ho, !Nat.eqb_refl. reflexivity.
  - intros s D Z G o HR HD HL H1 Ho. unfold tk_regresidual. rewrite HD, HL. destruct (tk_reach_ok s HR D Z HD) as (_ & k & d & r & HDm).
    destruct (dims_eq _ _ _ _ _ HDm) as (Ek & Ed & Er).
    rewrite (base_residual_vec D Z k d r o HDm). rewrite <- Er, <- Ed, H1, Ho, !Nat.eqb_refl. cbn [andb].
    cbn [check_ohat]. rewrite Ho, !Nat.eqb_refl. cbn [andb].
    rewrite (shape_is_true 1 (ncols D) [o]); [reflexivity|lia|]. apply is_mat_singleton; auto.
Qed.
