(* ParaFinal.v -- parametric models: the statements about fit() and refit(). *)
From Coq Require Import ZArith Permutation.
From Verif Require Import LinAlg MatAlg OpsProofs BlockAlg SolverReg SolverCond AffProofs InterpProofs.
From Verif Require Export ParaBest.
From Verif Require Export SpecPara.
#[local] Open Scope nat_scope.

Lemma in_pindices p l i : In i (pindices p l) <-> exists o, nth_error l i = Some o /\ p o = true.
Proof. unfold pindices. rewrite filter_In, in_seq. split.
  - intros [_ H]. destruct (nth_error l i) as [o|]; [eauto|discriminate].
  - intros (o & E & H). rewrite E. split; auto. assert (i < length l) by (apply nth_error_Some; congruence). lia. Qed.
Lemma pindices_perm p l : Permutation (pindices p l ++ pindices (fun o => negb (p o)) l) (seq 0 (length l)).
Proof. etransitivity; [|apply (partition_perm (fun i => match nth_error l i with Some o => p o | None => false end))].
  apply Permutation_app_head. unfold pindices. apply Permutation_refl'. apply filter_ext_in. intros i Hi. apply in_seq in Hi.
  destruct (nth_error l i) eqn:E; auto. apply nth_error_None in E. lia. Qed.

Lemma valid_paux o : valid_pop o -> paux o. Proof. intros [_ H]. destruct o; cbn in *; auto. Qed.
Lemma pmk_model_inv X k args a d : pext_ok X -> Forall valid_parg args -> valid_solver (x_lsvd (px_l X)) a -> pmk_model k args a = Ok d -> pinv X d /\ pm_kind d = k.
Proof. intros HX HV Ha E. unfold pmk_model in E. destruct args as [|a0 args0] eqn:Eargs; [discriminate|]. rewrite <- Eargs in *. assert (Hne : args <> []) by (rewrite Eargs; congruence). clear Eargs.
  destruct (mapM presolve args) as [ops|] eqn:EM; [|discriminate]. cbn [bind] in E. assert (HF := proj1 (mapM_Forall2 presolve args ops) EM).
  destruct (duplicates _); [discriminate|]. destruct (pstate_dim ops) as [r|]; [|discriminate]. cbn [bind] in E. destruct (pinput_dim ops) as [m|]; [|discriminate]. cbn [bind] in E.
  assert (HVo : Forall valid_pop ops). { clear - HF HV. revert HV. induction HF as [|x y l l' H1 H2 IH]; intros HV; constructor; apply Forall_cons_iff in HV; [|tauto]. destruct x; cbn in H1; [injection H1 as <-; tauto|discriminate]. }
  set (d0 := {| pm_kind := k; pm_ops := ops |}) in E.
  assert (H0 : pinv X d0).
  { rewrite Forall_forall in HVo. constructor; cbn.
    - intros ->. inversion HF. congruence.
    - apply pindices_perm.
    - intros i Hi. apply in_pindices in Hi. destruct Hi as (o & Eo & Hu). unfold puncal in Hu. destruct (pentries o) eqn:Ee; [|discriminate]. destruct (HVo o (nth_error_In _ _ Eo)) as [Hv _]. destruct Hv as (r0 & m0 & ? & ? & ?); [congruence|]. eauto 8.
    - intros o Ho. apply valid_paux. auto.
    - reflexivity.
    - reflexivity.
    - discriminate. }
  destruct (psync None d0) as [d1 x1] eqn:E1. destruct (psync_inv X None d0 d1 x1 HX H0 E1) as (F1 & S1 & _). destruct x1 as [[]|]; cbn [pseq] in E; [|discriminate].
  assert (H1 : pinv X d1). { eapply pframe_inv; eauto. rewrite S1. discriminate. }
  destruct (pset_solver a d1) as [d2 x2] eqn:E2. destruct x2; [|discriminate]. injection E as <-. destruct (pset_solver_inv X a d1 d2 _ H1 Ha E2) as [F2 W2].
  split; [eapply pframe_inv; eauto|]. rewrite (pfr_kind X _ _ F2), (pfr_kind X _ _ F1). reflexivity. Qed.

Lemma pfit_frame X d mus states lhs inputs d' x : pext_ok X -> pinv X d -> fit_args d mus states lhs inputs -> pfit X d mus states lhs inputs = (d', x) -> pframe X d d' /\ forall s, pm_solver d' = Some s -> winv (px_l X) s.
Proof. intros HX H HA E. unfold pfit in E. destruct (pm_intrusive d) eqn:Ei; [injection E as <- _; split; [apply pframe_refl|apply (pi_solver X d H)]|].
  destruct (pfit_solver X d mus states lhs inputs) as [d1 x1] eqn:E1. destruct (pfit_solver_inv X d mus states lhs inputs d1 x1 HX H HA Ei E1) as (F1 & W1 & _). destruct x1 as [[]|]; cbn [pseq] in E; [|injection E as <- _; auto].
  assert (H1 : pinv X d1) by (eapply pframe_inv; eauto). destruct (prefit_frame X d1 d' x H1 E) as [F2 S2]. split; [eapply pframe_trans; eauto|]. rewrite S2. auto. Qed.
Lemma pset_reg_frame X g d d' x : pinv X d -> valid_reg g -> pset_reg g d = (d', x) -> pframe X d d' /\ forall s, pm_solver d' = Some s -> winv (px_l X) s.
Proof. intros H HG E. unfold pset_reg in E. destruct (pm_solver d) as [s|] eqn:Es; [|injection E as <- _; split; [apply pframe_refl|apply (pi_solver X d H)]].
  assert (HW := lsq_setreg_winv (px_l X) s g (pi_solver X d H s Es) HG). destruct (lsq_setreg s g) as [s' y]. injection E as <- _. split; [apply pframe_ops_eq; reflexivity|]. cbn in *. intros s0 [= <-]. auto. Qed.
Lemma pstep_inv X d ev : pext_ok X -> pinv X d -> valid_pevent X d ev -> pinv X (pstep X d ev) /\ pframe X d (pstep X d ev).
Proof. intros HX H HV. assert (G : forall d', pframe X d d' -> (forall s, pm_solver d' = Some s -> winv (px_l X) s) -> pinv X d' /\ pframe X d d') by (intros; split; auto; eapply pframe_inv; eauto).
  destruct ev; cbn [pstep valid_pevent] in *.
  - destruct (pset_solver a d) as [d' x] eqn:E. destruct (pset_solver_inv X a d d' x H HV E). apply G; auto.
  - destruct (pset_reg g d) as [d' x] eqn:E. destruct (pset_reg_frame X g d d' x H HV E). apply G; auto.
  - destruct (pfit X d mus states lhs inputs) as [d' x] eqn:E. destruct (pfit_frame X d mus states lhs inputs d' x HX H HV E). apply G; auto.
  - destruct (prefit X d) as [d' x] eqn:E. destruct (prefit_frame X d d' x H E) as [F S]. apply G; auto. cbn. rewrite S. apply (pi_solver X d H).
  - destruct (pevaluate_frame X d mu) as [F S]. apply G; auto. rewrite S. apply (pi_solver X d H). Qed.
Lemma preach_inv X d : pext_ok X -> preach X d -> pinv X d.
Proof. intros HX H. induction H as [k args a d HV Ha E|d ev H IH HV]; [eapply pmk_model_inv; eauto|apply pstep_inv; auto]. Qed.

(* ---- minimality ------------------------------------------------------------------------------------------------------------------- *)
Lemma presidual_rows d r mus states lhs inputs x : presidual d r mus states lhs inputs x -> exists g, x = bsum r g /\ forall i, presidual_row d r mus states lhs inputs i (g i).
Proof. intros (f & Hf & ->). exists (fun i => bsum (length mus) (fun b => bsum (ncols (dset states b)) (fun j => Rsqr (vget (f b j) i - mget (dset lhs b) i j)))). split.
  - rewrite bsum_swap. apply bsum_ext. intros b Hb. apply bsum_swap.
  - intros i. exists f. auto. Qed.
Lemma pfitted_best X d d' r m p mus ks states lhs Us inputs s : pext_ok X -> pfitted X d r m p mus ks (map atleast_2d states) (map atleast_2d lhs) Us inputs -> prefit X d = (d', Ok tt) ->
  (forall s' w, pm_solver d = Some s' -> penalty s' w = penalty s w) -> pbest d' s mus states lhs inputs.
Proof. intros HX H E HS. destruct (prefit_inv X d d' (Ok tt) r m p mus ks _ _ Us inputs HX H E) as (H' & _ & Es' & K). destruct (K eq_refl) as (HC & HSz & s1 & O & Es1 & EO & EAll). clear K.
  destruct (pfitted_mm _ _ _ _ _ _ _ _ _ _ _ H') as (mm & Em & Hmm). destruct (pf_solver _ _ _ _ _ _ _ _ _ _ _ H') as (s2 & Bs & L & Es2 & HW & HBs & HCl & HL & HLv).
  assert (s2 = s1) by congruence. subst s2. destruct (pf_dims _ _ _ _ _ _ _ _ _ _ _ H') as (Hr & Hm & Hks & Hmus & HN & HLk & HU).
  assert (Eself : pw_ops (pm_ops d') d' = d') by (destruct d'; reflexivity).
  destruct (cand_residual X d' r m p mus ks states lhs Us inputs (pm_ops d') s1 Bs L HX H' HC HBs HCl HLv) as (HM0 & (f0 & Hf0) & HRow0). rewrite Eself in HM0, Hf0, HRow0.
  set (W := lsumn (map (wdp r m (length mus) (pm_ops d')) (pm_infer d'))) in *.
  exists r, mm. split; [apply (pf_r _ _ _ _ _ _ _ _ _ _ _ H')|]. split; auto. split; [eexists; exists f0; split; [exact Hf0|reflexivity]|].
  intros l HCl0. assert (HCl1 : pcandidate r m mus d' l).
  { destruct HCl0 as (A & B & C). split; auto. split; auto. intros i Hi. destruct (C i Hi) as (o0 & o & E0 & E1 & V). exists o0, o. split; auto. split; auto. destruct Hmm as [<-|Hno]; auto. apply (version_noinput r mm); auto. apply Hno. eapply nth_error_In; eauto. }
  destruct (cand_residual X d' r m p mus ks states lhs Us inputs l s1 Bs L HX H' HCl1 HBs HCl HLv) as (HM1 & (f1 & Hf1) & HRow1). fold W in HM1, HRow1.
  split; [eexists; exists f1; split; [exact Hf1|reflexivity]|]. intros O1 O2 pen Hpen.
  assert (Hcols : 0 < lsumn ks). { apply lsumn_pos; [destruct ks, mus; cbn in *; congruence|]. apply Forall_forall. exact Hks. }
  assert (HD : is_mat (lsumn ks) W (hstack (map mT Bs))).
  { apply is_mat_hstack; [|assert (Hne := pf_ne _ _ _ _ _ _ _ _ _ _ _ H'); destruct HBs; [congruence|cbn; congruence]]. assert (HIr := pf_infer _ _ _ _ _ _ _ _ _ _ _ H'). clear - HBs Hr Hm Hmus HIr. revert HIr. induction HBs as [|a B ix Bs (o & Eo & HB) HBs IH]; intros HIr; cbn [map]; constructor; [|apply IH; intros; apply HIr; right; auto].
    destruct (HIr a (or_introl eq_refl)) as (o1 & E1 & Ho). rewrite Eo in E1. injection E1 as <-. unfold wdp. rewrite Eo. apply is_mat_mT; [apply HB|]. eapply pw_pos; eauto. }
  destruct (lsq_solve_clean (px_l X) s1 _ L O (proj1 HX) HCl EO) as (_ & HMin). rewrite (is_mat_nrows _ _ _ HL), (ncols_is_mat _ _ _ HD Hcols), (is_mat_nrows _ _ _ HD) in HMin.
  fold O1 in HM0. fold O2 in HM1. assert (EW : ncols O1 = W) by (apply (ncols_is_mat r); auto). rewrite EW in Hpen.
  assert (Hpen1 : penalty s1 W = Some pen) by (rewrite HS; auto). destruct (HMin pen Hpen1) as [_ HMn].
  assert (ROW : forall i x y, i < r -> presidual_row d' r mus states lhs inputs i x -> presidual_row (pw_ops l d') r mus states lhs inputs i y -> (x + pen O1 i <= y + pen O2 i)%R).
  { intros i x y Hi Hx Hy. rewrite (HRow0 i x Hi Hx), (HRow1 i y Hi Hy). fold O1 O2. unfold O1 at 1 2. rewrite EAll. apply HMn; auto. }
  split; auto. intros x y Hx Hy. destruct (presidual_rows _ _ _ _ _ _ _ Hx) as (g & -> & Hg). destruct (presidual_rows _ _ _ _ _ _ _ Hy) as (h & -> & Hh). rewrite <- !bsum_plus. apply bsum_le. intros i Hi. apply ROW; auto. Qed.

Lemma pset_reg_fitted X g d d' r m p mus ks Qs Zs Us inputs : pext_ok X -> pfitted X d r m p mus ks Qs Zs Us inputs -> valid_reg g -> pset_reg g d = (d', Ok tt) -> pfitted X d' r m p mus ks Qs Zs Us inputs.
Proof. intros HX H HG E. assert (HI := pf_inv _ _ _ _ _ _ _ _ _ _ _ H). destruct (pset_reg_frame X g d d' _ HI HG E) as [F W]. assert (HI' : pinv X d') by (eapply pframe_inv; eauto). unfold pset_reg in E.
  destruct (pf_solver _ _ _ _ _ _ _ _ _ _ _ H) as (s & Bs & L & Es & HW & HBs & HCl & HL & HLv). rewrite Es in E. destruct (lsq_setreg s g) as [s' y] eqn:EG. injection E as <- ->.
  destruct H. constructor; cbn [pw_solver pm_ops pm_infer pm_r pm_m pm_s pm_hasin pm_known pm_solver]; auto. exists s', Bs, L. split; auto. split; [apply W; auto|]. split; auto. split; [eapply lsq_setreg_clean; eauto|]. split; auto. Qed.

Lemma pfit_ok_fitted X d mus states lhs inputs d' : pext_ok X -> pinv X d -> fit_args d mus states lhs inputs -> NoDup mus -> pm_intrusive d = false -> pfit X d mus states lhs inputs = (d', Ok tt) ->
  exists d1 r m p ks Us, pframe X d d1 /\ psamepen d d1 /\ pfitted X d1 r m p mus ks (map atleast_2d states) (map atleast_2d lhs) Us inputs /\ prefit X d1 = (d', Ok tt).
Proof. intros HX H HA HN Hi E. unfold pfit in E. rewrite Hi in E. destruct (pfit_solver X d mus states lhs inputs) as [d1 x1] eqn:E1. destruct (pfit_solver_inv X d mus states lhs inputs d1 x1 HX H HA Hi E1) as (F1 & W1 & K1).
  destruct x1 as [[]|]; cbn [pseq] in E; [|discriminate]. destruct (K1 eq_refl HN) as (HP & r & m & p & ks & Us & _ & HF). exists d1, r, m, p, ks, Us. auto. Qed.
Lemma pfit_solver_some X d mus states lhs inputs d' s' : pext_ok X -> pinv X d -> pfit_solver X d mus states lhs inputs = (d', Ok tt) -> pm_solver d' = Some s' -> exists s, pm_solver d = Some s.
Proof. intros HX H E Es. unfold pfit_solver in E. destruct (pprocess d mus states lhs inputs) as [d1 x1] eqn:EP. destruct (pprocess_inv X d mus states lhs inputs d1 x1 HX H EP) as (F1 & S1 & _).
  destruct x1 as [[[Qs Zs] oUs]|]; cbn [pseq] in E; [|discriminate]. destruct (set_training mus (pm_ops d1)) as [l xl]. destruct xl; [|discriminate]. destruct (passemble _ _ _ _); [|discriminate]. destruct (hstack_r Zs); [|discriminate].
  cbn in E. destruct (pm_solver d1) eqn:E1; [|discriminate]. rewrite <- S1. eauto. Qed.

(* what fit() leaves of the model: its kind, the classes, coefficient functions and numbers of terms of its operators, which ones are
   learned, and the known operators themselves *)
Definition psame_roles (d d' : pmodel) : Prop :=
  pm_kind d' = pm_kind d /\ pm_infer d' = pm_infer d /\ pm_known d' = pm_known d /\ map pcls (pm_ops d') = map pcls (pm_ops d) /\
  forall i, In i (pm_known d) -> exists o o', nth_error (pm_ops d) i = Some o /\ nth_error (pm_ops d') i = Some o' /\ (o' = o \/ exists p, o' = with_pdim p o).
Lemma pframe_roles X d d' : pinv X d -> pframe X d d' -> psame_roles d d'.
Proof. intros H F. split; [apply F|]. split; [apply F|]. split; [apply F|]. split; [eapply pframe_cls; eauto|]. intros i Hi. destruct (nth_error_lt (pm_ops d) i) as [o Eo]; [eapply pinv_lt; eauto|].
  destruct (pfr_ops X d d' F i o Eo) as (o' & Eo' & _ & K). exists o, o'. split; auto. split; auto. apply K; auto. Qed.

Theorem pfit_best X d mus states lhs inputs d' s : pext_ok X -> preach X d -> fit_args d mus states lhs inputs -> NoDup mus -> pm_intrusive d = false ->
  pfit X d mus states lhs inputs = (d', Ok tt) -> pm_solver d = Some s -> pbest d' s mus states lhs inputs /\ psame_roles d d'.
Proof. intros HX HR HA HN Hi E Es. assert (H := preach_inv X d HX HR). destruct (pfit_ok_fitted X d mus states lhs inputs d' HX H HA HN Hi E) as (d1 & r & m & p & ks & Us & F1 & HP & HF & ER).
  split. { eapply pfitted_best; eauto. } destruct (prefit_inv X d1 d' _ _ _ _ _ _ _ _ _ _ HX HF ER) as (_ & F2 & _). apply (pframe_roles X); auto. eapply pframe_trans; eauto. Qed.

Lemma ptuned_fitted X mus states lhs inputs d : pext_ok X -> ptuned X mus states lhs inputs d -> exists r m p ks Us, pfitted X d r m p mus ks (map atleast_2d states) (map atleast_2d lhs) Us inputs.
Proof. intros HX H. induction H as [d d' HR HA HN Hi E|d g d' HT IH HG E|d d' x HT IH E].
  - destruct (pfit_ok_fitted X d mus states lhs inputs d' HX (preach_inv X d HX HR) HA HN Hi E) as (d1 & r & m & p & ks & Us & _ & _ & HF & ER). destruct (prefit_inv X d1 d' _ _ _ _ _ _ _ _ _ _ HX HF ER) as (H' & _). eauto 8.
  - destruct IH as (r & m & p & ks & Us & H). exists r, m, p, ks, Us. eapply pset_reg_fitted; eauto.
  - destruct IH as (r & m & p & ks & Us & H). exists r, m, p, ks, Us. eapply prefit_inv; eauto. Qed.
Theorem ptuned_best X mus states lhs inputs d d' s : pext_ok X -> ptuned X mus states lhs inputs d -> prefit X d = (d', Ok tt) -> pm_solver d = Some s -> pbest d' s mus states lhs inputs.
Proof. intros HX HT E Es. destruct (ptuned_fitted X mus states lhs inputs d HX HT) as (r & m & p & ks & Us & H). eapply pfitted_best; eauto. intros s' w E'. congruence. Qed.
