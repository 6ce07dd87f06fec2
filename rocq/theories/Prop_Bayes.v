(* Prop_Bayes.v -- property C56: Bayesian reduced-order models. *)
From Coq Require Import ZArith Reals Lra Lia List.
From Verif Require Import MonoEx PreFinal RomParts RomFit RomEx GridFinal RegselEx BayesRom BayesEx SpecRegsel SpecGrid SpecRom SpecBayes.
#[local] Open Scope nat_scope.

(* C56: the posterior of a model that was trained by any sequence of calls: the means are the operator matrix that the solver returns, which minimises the misfit plus penalty of every row; the covariance matrix of row i is the inverse of (D'D + G'G) / v, with v the misfit plus penalty of row i per snapshot. *)
Theorem C56_posterior_of_trained :
  forall X MX d p,
  lsx_ok X -> inverts MX -> reach X d -> check_trained d = Ok tt -> m_intrusive d = false -> posterior_of X MX d = Ok p ->
  exists s d', m_solver d = Some s /\ is_posterior s p /\ lsq_solve X s = Ok (po_means p) /\ MonoModel.refit X d = (d', Ok tt) /\ carries d (po_means p) d'.
Proof. exact trained_posterior. Qed.
Print Assumptions C56_posterior_of_trained.

(* C56: ... of a model that was just fitted: the misfit is that of the model on the snapshots, and the penalty that of the solver it was created with. *)
Theorem C56_posterior_of_fit :
  forall X MX d states lhs inputs d' p,
  lsx_ok X -> inverts MX -> reach X d -> m_intrusive d = false -> good_arr states -> good_arr lhs -> valid_in inputs ->
  MonoModel.fit X d states lhs inputs = (d', Ok tt) -> posterior_of X MX d' = Ok p ->
  exists s, m_solver d' = Some s /\ is_posterior s p /\ misfit_of_data d' s states lhs inputs p /\ forall s0 w, m_solver d = Some s0 -> penalty s w = penalty s0 w.
Proof. exact fit_posterior. Qed.
Print Assumptions C56_posterior_of_fit.

(* C56: BayesianROM.fit: the posterior is that of the regression on the encoded training trajectories. *)
Theorem C56_fit_posterior :
  forall LX MX b T ft fb b' p Qs Zs Us,
  lsx_ok LX -> inverts MX -> reach LX (rm_model (br_rom b)) -> m_intrusive (rm_model (br_rom b)) = false ->
  trajectories_of T Qs Zs Us -> same_length Qs Zs -> same_length Qs Us -> good_contributions (rm_parts (br_rom b')) (rm_ddt (br_rom b')) (rm_cont (br_rom b)) Qs Zs Us ->
  bayes_fit LX MX b T ft fb = (b', Ok tt) -> br_post b' = Some p ->
  exists es ds us Q L U U' s, fitted_on ft fb Qs (rm_parts (br_rom b)) (rm_parts (br_rom b')) /\ contributions (rm_parts (br_rom b')) (rm_ddt (br_rom b')) (rm_cont (br_rom b)) Qs Zs Us es ds us /\
    hstack_arr es = Ok Q /\ hstack_arr ds = Ok L /\ hstack_opt us = Ok U /\ (U' = U \/ exists A u, Q = M A /\ U = Some u /\ U' = Some (cut (ncols A) u)) /\
    m_solver (rm_model (br_rom b')) = Some s /\ is_posterior s p /\ misfit_of_data (rm_model (br_rom b')) s Q L U' p /\ forall s0 w, m_solver (rm_model (br_rom b)) = Some s0 -> penalty s w = penalty s0 w.
Proof. exact bayes_fit_data. Qed.
Print Assumptions C56_fit_posterior.

(* C56: a fit that succeeds leaves the posterior of the fitted model, or none if the precision matrices cannot be inverted. *)
Theorem C56_fit_ok :
  forall LX MX b T ft fb b',
  bayes_fit LX MX b T ft fb = (b', Ok tt) ->
  rom_fit LX (br_rom b) T ft fb = (br_rom b', Ok tt) /\
  match br_post b' with Some p => posterior_of LX MX (rm_model (br_rom b')) = Ok p | None => posterior_of LX MX (rm_model (br_rom b')) = Err LinAlgError end.
Proof. exact bayes_fit_ok. Qed.
Print Assumptions C56_fit_ok.

(* C56: a fit that raises leaves the posterior of the fit before. *)
Theorem C56_fit_raises :
  forall LX MX b T ft fb b' e,
  bayes_fit LX MX b T ft fb = (b', Err e) ->
  br_post b' = br_post b /\
  (rom_fit LX (br_rom b) T ft fb = (br_rom b', Err e) \/
   rom_fit LX (br_rom b) T ft fb = (br_rom b', Ok tt) /\ posterior_of LX MX (rm_model (br_rom b')) = Err e /\ e <> LinAlgError).
Proof. exact bayes_fit_err. Qed.
Print Assumptions C56_fit_raises.

(* C56, false after a fit that raises: the posterior is that of earlier data, while the operators are those of the new data. *)
Theorem C56_stale_posterior_refuted :
  exists (LX : lsx) (MX : mvn) b T1 T2 b1 b2 p1 e, lsx_ok LX /\ inverts MX /\ mk_brom (rm_model (br_rom b)) None None None None = Ok b /\
  bayes_fit LX MX b T1 false None = (b1, Ok tt) /\ br_post b1 = Some p1 /\ bayes_fit LX MX b1 T2 false None = (b2, Err e) /\ br_post b2 = Some p1 /\
  operator_matrix (rm_model (br_rom b2)) <> Ok (po_means p1) /\ forall p, posterior_of LX MX (rm_model (br_rom b2)) <> Ok p.
Proof. exact stale_posterior. Qed.
Print Assumptions C56_stale_posterior_refuted.

(* C56: after any number of draws, the next draw works: row i of the operator matrix is a sample of distribution i, the rows being drawn in order, and this matrix is distributed over the operators to be inferred; everything else is as it was. *)
Theorem C56_draws :
  forall (G : Type) (normal : vec -> mat -> G -> G * vec), keeps_size normal -> forall (X : lsx) (MX : mvn), lsx_ok X -> inverts MX ->
  forall d p g s1,
  reach X d -> check_trained d = Ok tt -> m_intrusive d = false -> posterior_of X MX d = Ok p -> after_draws normal (Build_bstate d (Some p) g) s1 ->
    exists A g' d', draw normal s1 = (Build_bstate d' (Some p) g', Ok tt) /\ samples normal p (bs_gen s1) A g' /\ carries d A d'.
Proof. exact @draws_ok. Qed.
Print Assumptions C56_draws.

(* C56: what a draw gives depends on the state of the generator, not on earlier draws. *)
Theorem C56_draws_forget :
  forall (G : Type) (normal : vec -> mat -> G -> G * vec), keeps_size normal -> forall (X : lsx) (MX : mvn), lsx_ok X -> inverts MX ->
  forall d p g h s1 s2,
  reach X d -> check_trained d = Ok tt -> m_intrusive d = false -> posterior_of X MX d = Ok p ->
    after_draws normal (Build_bstate d (Some p) g) s1 -> after_draws normal (Build_bstate d (Some p) h) s2 -> bs_gen s1 = bs_gen s2 -> draw normal s1 = draw normal s2.
Proof. exact @draws_forget. Qed.
Print Assumptions C56_draws_forget.

(* C56: predict draws once and predicts with the drawn operators. *)
Theorem C56_predict :
  forall (G : Type) (normal : vec -> mat -> G -> G * vec), keeps_size normal -> forall (X : lsx) (MX : mvn), lsx_ok X -> inverts MX ->
  forall d p g s1 pred b q0,
  reach X d -> check_trained d = Ok tt -> m_intrusive d = false -> posterior_of X MX d = Ok p ->
    after_draws normal (Build_bstate d (Some p) g) s1 -> rm_model (br_rom b) = bs_model s1 -> br_post b = bs_post s1 ->
    exists A g' b', bayes_predict normal pred b (bs_gen s1) q0 = (b', g', rom_predict_with (pred (rm_model (br_rom b'))) (rm_parts (br_rom b)) q0) /\
      samples normal p (bs_gen s1) A g' /\ carries d A (rm_model (br_rom b')) /\ br_post b' = Some p /\ rm_parts (br_rom b') = rm_parts (br_rom b) /\ rm_ddt (br_rom b') = rm_ddt (br_rom b).
Proof. exact @predict_draws. Qed.
Print Assumptions C56_predict.

(* C56: without a posterior, draw_operators and predict raise AttributeError and change nothing. *)
Theorem C56_no_posterior :
  forall {G} (normal : vec -> mat -> G -> G * vec) pred b g q0,
  br_post b = None ->
  draw_operators normal b g = (b, g, Err AttributeError) /\ bayes_predict normal pred b g q0 = (b, g, Err AttributeError).
Proof. exact @no_posterior. Qed.
Print Assumptions C56_no_posterior.

(* C56: exactly the models whose solver has a posterior are accepted. *)
Theorem C56_solvers :
  forall d lf t b D,
  mk_brom d lf t b D = Err AttributeError <-> forall s, m_solver d = Some s -> match s with LPlain _ | LTsvd _ | LTls _ => True | _ => False end.
Proof. exact other_solvers. Qed.
Print Assumptions C56_solvers.

(* C56, false for a posterior that was loaded from a file: nothing can be drawn from it. *)
Theorem C56_loaded_refuted :
  forall {G} (normal : vec -> mat -> G -> G * vec) (X : mvn) nd p d g,
  post_load X nd = Ok p -> m_infer d <> [] ->
  exists g' e, draw normal (Build_bstate d (Some p) g) = (Build_bstate d (Some p) g', Err e) /\ (e = IndexError \/ e = TypeError).
Proof. exact @loaded_cannot_draw. Qed.
Print Assumptions C56_loaded_refuted.

(* C56, time-discrete: if fit_regselect_discrete succeeds, every candidate was tried: N draws for each test case and N for each trajectory.  The selected candidate is acceptable (all its draws pass the tests and stay within the margin) and the error of the mean of its predictions is at most that of every acceptable candidate of the grid.  Its posterior is installed. *)
Theorem C56_discrete_selects :
  forall (G : Type) (normal : vec -> mat -> G -> G * vec), keeps_size normal -> forall (LX : lsx) (MX : mvn), lsx_ok LX -> inverts MX ->
  forall PR bounded nm b g c T ft fb factory only ntest margin N tests b' g' Qs Us n0 n p ks,
  steps_well PR -> (forall x y, honest [] (bounded x y)) -> (forall x, honest [] (nm x)) -> (forall q h, factory q = Ok h -> valid_reg h) ->
    reach LX (rm_model (br_rom b)) -> m_frozen (rm_model (br_rom b)) = false -> m_intrusive (rm_model (br_rom b)) = false ->
    trajectories_of T (map M Qs) None Us -> (forall l, Us = Some l -> Forall good_arr l) -> blocks n0 ks Qs -> Forall (lt 1) ks -> 0 < p ->
    trained_parts n p (rm_parts (br_rom b')) -> columnwise_lifter n0 n (rp_lift (rm_parts (br_rom b'))) ->
    bayes_discrete normal LX MX PR bounded nm b g c T ft fb factory only ntest margin N tests = (b', g', Ok tt) ->
    exists r1 Es L1 L2 q e d post, prepared LX (reset_solver (br_rom b)) r1 ft fb (map M Qs) None Us (map M Es) /\ rm_parts (br_rom b') = rm_parts r1 /\ rm_ddt (br_rom b') = rm_ddt r1 /\
      Forall2 (fun k E => is_mat p (k - 1) E) ks Es /\ Forall2 (fun Q E => exists C, encode1 (rm_parts r1) (M Q) = Ok (M C) /\ E = map (@removelast R) C) Qs Es /\
      trials normal LX MX factory (rm_model r1) (map (fun t d => passes_discrete PR (rm_parts r1) d t) tests) (map (fits_discrete PR margin p ntest) (combine Es (inputs_for (length Es) Us))) N (length Es) g (L1 ++ L2) g' /\
      Permutation (points c) (map fst L1) /\ (only = true -> L2 = []) /\ In (q, Some e) (L1 ++ L2) /\ (forall q' e', In (q', Some e') L1 -> (e <= e')%R) /\
      with_candidate factory (rm_model r1) q d /\ posterior_of LX MX d = Ok post /\ selected normal d post b'.
Proof. exact @discrete_selects. Qed.
Print Assumptions C56_discrete_selects.

(* C56, time-continuous: the same for fit_regselect_continuous. *)
Theorem C56_continuous_selects :
  forall (G : Type) (normal : vec -> mat -> G -> G * vec), keeps_size normal -> forall (LX : lsx) (MX : mvn), lsx_ok LX -> inverts MX ->
  forall PR bounded nm b g c ts Qs Zs us ft fb factory only len margin N tests b' g' n0 n p ks,
  solves_well PR -> (forall x y, honest [] (bounded x y)) -> (forall x, honest [] (nm x)) -> (forall q h, factory q = Ok h -> valid_reg h) ->
    reach LX (rm_model (br_rom b)) -> m_frozen (rm_model (br_rom b)) = false -> m_intrusive (rm_model (br_rom b)) = false ->
    same_length (map M Qs) Zs -> length ts = length Qs -> (forall l, us = Some l -> length l = length Qs) -> Forall in_order ts ->
    blocks n0 ks Qs -> Forall (lt 0) ks -> 0 < n0 -> 0 < p -> trained_parts n p (rm_parts (br_rom b')) -> columnwise_lifter n0 n (rp_lift (rm_parts (br_rom b'))) ->
    Forall (fun t => exists v, ct_ic t = V v /\ length v = n0) tests ->
    (forall Us, sampled us ts Us -> good_contributions (rm_parts (br_rom b')) (rm_ddt (br_rom b')) true (map M Qs) Zs Us) ->
    bayes_continuous normal LX MX PR bounded nm b g c ts (map M Qs) Zs us ft fb factory only len margin N tests = (b', g', Ok tt) ->
    exists r1 Us es cs L1 L2 q e d post, sampled us ts Us /\ prepared LX (reset_solver (br_rom b)) r1 ft fb (map M Qs) Zs Us es /\ rm_parts (br_rom b') = rm_parts r1 /\ rm_ddt (br_rom b') = rm_ddt r1 /\
      ctrajs (rm_parts r1) us len ts Qs cs /\
      trials normal LX MX factory (rm_model r1) (map (fun t d => passes_continuous PR (rm_parts r1) d t) tests) (map (fits_continuous PR margin p) cs) N (length Qs) g (L1 ++ L2) g' /\
      Permutation (points c) (map fst L1) /\ (only = true -> L2 = []) /\ In (q, Some e) (L1 ++ L2) /\ (forall q' e', In (q', Some e') L1 -> (e <= e')%R) /\
      with_candidate factory (rm_model r1) q d /\ posterior_of LX MX d = Ok post /\ selected normal d post b'.
Proof. exact @continuous_selects. Qed.
Print Assumptions C56_continuous_selects.

(* C56, false of the model after the search: its operators are not drawn from the selected posterior, but from that of the last candidate tried. *)
Theorem C56_selected_operators_refuted :
  exists (LX : lsx) (MX : mvn) PR bnd nmd b c T fac' tests b' g' d p A, lsx_ok LX /\ inverts MX /\ keeps_size nrm0 /\ steps_well PR /\ (forall x y, honest [] (bnd x y)) /\ (forall x, honest [] (nmd x)) /\
  bayes_discrete nrm0 LX MX PR bnd nmd b 0 c T false None fac' true 1 5 2 tests = (b', g', Ok tt) /\ rm_model (br_rom b') = d /\ br_post b' = Some p /\ operator_matrix d = Ok A /\
  A <> po_means p /\ forall g g1, ~ samples nrm0 p g A g1.
Proof. exact search_leaves_operators. Qed.
Print Assumptions C56_selected_operators_refuted.

(* ---- the hypotheses can be met ---- *)
Definition trainedM : model := gen KContinuous [knw (OLin [[2]]%R)] (Some 1) (Some 0%R) (Some pre2).
(* a model that was created, given the regularizer 0, and fitted *)
Example trained_example : reach X2 trainedM /\ check_trained trainedM = Ok tt /\ m_intrusive trainedM = false /\ posterior_of X2 MX1 trainedM = Ok (p50 0) /\ lsx_ok X2 /\ inverts MX1 /\ keeps_size nrm.
Proof. assert (HB : reach X2 (gen KContinuous [unk CLin] None (Some 0%R) None)).
  { apply (reach_step X2 (RegselEx.blank KContinuous) (ESetReg (GL2 (RScalar 0))) _ (Ok tt)); [apply RegselEx.blank_reach|exact I| |reflexivity]. cbn [mstep]. unfold set_regularizer. cbn [RegselEx.blank gen m_solver lsq_setreg wrap]. unfold l2_set, wrap. destruct (Rlt_dec 0 0) as [|_]; [lra|]. reflexivity. }
  split. { apply (reach_step X2 _ (EFit (M [[3; 4]]%R) (M [[4; 19 / 2]]%R) None) _ (Ok tt) HB).
    - split; [|split]; [exists 1, 2|exists 1, 2|exact I]; repeat split; try lia; repeat constructor.
    - cbn [mstep]. apply (fit_c KContinuous None None None _ pre2 2%R); [exact base2|reflexivity|apply (core_of _ 10%R); try reflexivity; lra|reflexivity].
    - exact I. }
  split; [reflexivity|]. split; [reflexivity|]. split; [apply post50|]. split; [exact X2_ok|]. split; [exact MX1_inverts|exact nrm_size]. Qed.
Example fit_example : bayes_fit X2 MX1 (b0 None [unk CLin] None None) (Single [[3; 4]]%R (Some (M [[4; 19 / 2]]%R)) None) false None = (b0 (Some (p50 0)) [knw (OLin [[2]]%R)] (Some 1) (Some pre2), Ok tt) /\
  trajectories_of (Single [[3; 4]]%R (Some (M [[4; 19 / 2]]%R)) None) [M [[3; 4]]%R] (Some [M [[4; 19 / 2]]%R]) None /\ good_contributions noP None true [M [[3; 4]]%R] (Some [M [[4; 19 / 2]]%R]) None.
Proof. split; [exact b0_first|]. split; [repeat split|]. intros es ds us (L1 & L2 & L3 & L4 & HI). cbn in L1, L2. specialize (HI 0 ltac:(cbn; lia)). destruct es as [|e [|]]; try (cbn in L1; lia). destruct ds as [|d [|]]; try (cbn in L2; lia).
  cbn in HI. destruct HI as (Ec & Hu).
  assert (HA : forall a b : R, good_arr (M [[a; b]])) by (intros a b; exists 1, 2; split; [lia|]; split; [lia|split; repeat constructor]).
  assert (e = M [[3; 4]]%R /\ d = M [[4; 19 / 2]]%R) as (-> & ->) by (split; congruence). split; [repeat constructor; apply HA|]. split; [repeat constructor; apply HA|]. intros l ->. exfalso. destruct L3 as [_ L3]. discriminate (L3 eq_refl). Qed.
(* the third draw of a sequence *)
Example draws_example : exists s1, after_draws nrm (Build_bstate trainedM (Some (p50 0)) 0) s1 /\ bs_gen s1 = 2 /\ bs_model s1 <> trainedM.
Proof. assert (K : forall e h, draw nrm (Build_bstate (gen KContinuous [{| mo_cls := CLin; mo_ent := e |}] (Some 1) (Some 0%R) (Some pre2)) (Some (p50 0)) h) = (Build_bstate (gen KContinuous [knw (OLin [[50 / (25 + 0 * 0) + INR h * / (/ sig 0 * (25 + 0 * 0))]]%R)] (Some 1) (Some 0%R) (Some pre2)) (Some (p50 0)) (S h), Ok tt)).
  { intros e h. apply draw50; reflexivity. }
  eexists. split; [eapply ad_draw; [eapply ad_draw; [apply ad_none|apply K]|apply K]|]. split; [reflexivity|]. cbn [bs_model]. unfold trainedM, gen, knw. intros E. injection E as E. cbn in E.
  assert (Hs := sig_pos 0). assert (H1 : (50 / (25 + 0 * 0) = 2)%R) by field. rewrite H1 in E. assert (0 < / (/ sig 0 * (25 + 0 * 0)))%R; [|lra]. apply Rinv_0_lt_compat. apply Rmult_lt_0_compat; [apply Rinv_0_lt_compat; lra|lra]. Qed.
(* searches that succeed *)
Example discrete_example : bayes_discrete nrm0 X2 MX1 pr_exact bd nm (rB KDiscrete) 0 (CNums [5; 10]%R) (Single [[3; 4; 19 / 2]]%R None None) false None fac true 1 5 2 [tc] = (sel5, 7, Ok tt) /\ lsx_ok X2 /\ inverts MX1 /\ keeps_size nrm0 /\ steps_well pr_exact /\
  (forall a b, honest [] (bd a b)) /\ (forall x, honest [] (nm x)) /\ (forall q h, fac q = Ok h -> valid_reg h) /\ reach X2 (rm_model (br_rom (rB KDiscrete))) /\ trained_parts 1 1 (rm_parts (br_rom sel5)) /\ columnwise_lifter 1 1 (rp_lift (rm_parts (br_rom sel5))) /\
  trajectories_of (Single [[3; 4; 19 / 2]]%R None None) (map M [[[3; 4; 19 / 2]]%R]) None None /\ blocks 1 [3] [[[3; 4; 19 / 2]]%R].
Proof. split; [exact bayes_search|]. split; [exact X2_ok|]. split; [exact MX1_inverts|]. split; [exact nrm0_size|]. split; [exact pr_exact_steps|]. split; [cbn; auto|]. split; [cbn; auto|]. split; [intros [[x| | |]|] h E; try discriminate; injection E as <-; exact I|]. split; [apply RegselEx.blank_reach|]. split; [exact noP_trained|]. split; [reflexivity|]. split; [repeat split|repeat constructor]. Qed.
Example continuous_example : bayes_continuous nrm0 X2 MX1 pr_lin bd nm (rB KContinuous) 0 (CNums [5]%R) [[0; 1]%R] (map M [E34]) (Some (map M [[[4; 19 / 2]]%R])) None false None fac true 2 5 2 [] = (sel5c, 2, Ok tt) /\ solves_well pr_lin /\ in_order [0; 1]%R /\ blocks 1 [2] [E34] /\
  reach X2 (rm_model (br_rom (rB KContinuous))) /\ trained_parts 1 1 (rm_parts (br_rom sel5c)).
Proof. split; [exact bayes_search_c|]. split; [exact pr_lin_solves|]. split; [exact order01|]. split; [repeat constructor|]. split; [apply RegselEx.blank_reach|exact noP_trained]. Qed.
