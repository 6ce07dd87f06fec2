(* Prop_Para.v -- properties C33 and C34: parametric models. *)
From Coq Require Import ZArith Lia Lra List.
From Verif Require Import ParaFinal ParaEval ParaInterp ParaEx ParaPairs.
From Verif Require Import SpecPara.
#[local] Open Scope nat_scope.

(* C33: evaluate(mu) is a trained non-parametric model with operators of the same classes and dimensions. *)
Theorem C33_evaluate :
  forall X d r m mu e,
  pext_ok X -> trained_p r m d -> coeffs_ok (pm_ops d) mu -> snd (pevaluate d mu) = Ok e ->
  trained (px_l X) e r /\ m_kind e = pm_kind d /\ map mo_cls (m_ops e) = map pcls (pm_ops d) /\
  (existsb ptakes (pm_ops d) = true -> m_m e = Some m) /\ m_hasin e = existsb ptakes (pm_ops d).
Proof. exact evaluate_trained. Qed.
Print Assumptions C33_evaluate.

(* C33: it exists for every parameter of the right size if no operator is interpolated. *)
Theorem C33_evaluate_defined :
  forall d r m mu,
  trained_p r m d -> coeffs_ok (pm_ops d) mu -> (forall o, In o (pm_ops d) -> match o with PMono _ => True | PAff a => match a_pdim a with Some p => plen mu = p | None => True end | PItp _ => False end) ->
  exists e, snd (pevaluate d mu) = Ok e.
Proof. exact affine_evaluates. Qed.
Print Assumptions C33_evaluate_defined.

(* C33: rhs(mu, q, u) is the sum of what each operator contributes at mu. *)
Theorem C33_rhs :
  forall r m d mu e q u,
  trained_p r m d -> coeffs_ok (pm_ops d) mu -> snd (pevaluate d mu) = Ok e -> is_vec r q -> pinput_for d m u ->
  exists ys y, Forall2 (fun o yo => acts r mu q (option_map V u) o yo /\ is_vec r yo) (pm_ops d) ys /\
  prhs d mu (V q) (option_map V u) = Ok (V y) /\ is_vec r y /\ forall i, i < r -> vget y i = lsum (map (fun yo => vget yo i) ys).
Proof. exact prhs_is_the_sum. Qed.
Print Assumptions C33_rhs.

(* C33: jacobian(mu, q, u) is the derivative of rhs(mu, ., u). *)
Theorem C33_jacobian :
  forall X d r m mu e q u junk J dir,
  pext_ok X -> trained_p r m d -> coeffs_ok (pm_ops d) mu -> snd (pevaluate d mu) = Ok e -> is_vec r q -> pinput_for d m u ->
  (forall k, length (junk k) = k) -> pjacobian junk d mu q u = Ok J -> is_vec r dir -> is_mat r r J /\ exists f : R -> vec,
    (forall t, prhs d mu (V (along q dir t)) (option_map V u) = Ok (V (f t))) /\
    forall i, i < r -> derivable_pt_lim (fun t => vget (f t) i) 0 (vget (matvec J dir) i).
Proof. exact pjacobian_is_the_derivative. Qed.
Print Assumptions C33_jacobian.

(* C33: predict(mu, q0, n) iterates rhs(mu, ., .). *)
Theorem C33_predict :
  forall X d r m mu e q0 n inputs,
  pext_ok X -> trained_p r m d -> coeffs_ok (pm_ops d) mu -> snd (pevaluate d mu) = Ok e -> is_vec r q0 -> 1 <= n ->
  (existsb ptakes (pm_ops d) = true -> exists u k, inputs = Some (UArr u) /\ is_mat m k (atleast_2d u) /\ n - 1 <= k) -> exists Q,
  ppredict d mu (V q0) (Z.of_nat n) inputs = Ok Q /\ is_mat r n Q /\ colv r Q 0 = q0 /\
  forall j, j + 1 < n -> prhs d mu (V (colv r Q j)) (pstep_input d inputs j) = Ok (V (colv r Q (j + 1))).
Proof. exact ppredict_recurrence. Qed.
Print Assumptions C33_predict.

(* C33: fit() gives the least sum of squares over all parameters and snapshots plus penalty; known operators and the roles stay. *)
Theorem C33_fit_is_best :
  forall X d mus states lhs inputs d' s,
  pext_ok X -> preach X d -> fit_args d mus states lhs inputs -> NoDup mus -> pm_intrusive d = false ->
  pfit X d mus states lhs inputs = (d', Ok tt) -> pm_solver d = Some s -> pbest d' s mus states lhs inputs /\ psame_roles d d'.
Proof. exact pfit_best. Qed.
Print Assumptions C33_fit_is_best.

(* C33: the same for refit() after any sequence of regularizer changes and refits since the fit. *)
Theorem C33_refit_is_best :
  forall X mus states lhs inputs d d' s,
  pext_ok X -> ptuned X mus states lhs inputs d -> prefit X d = (d', Ok tt) -> pm_solver d = Some s -> pbest d' s mus states lhs inputs.
Proof. exact ptuned_best. Qed.
Print Assumptions C33_refit_is_best.

(* C33: after fit() every operator has entries of the size of the data. *)
Theorem C33_fit_trains :
  forall X d mus states lhs inputs d',
  pext_ok X -> preach X d -> fit_args d mus states lhs inputs -> NoDup mus -> pm_intrusive d = false ->
  pfit X d mus states lhs inputs = (d', Ok tt) -> exists r m, trained_p r m d' /\ pm_r d' = Some r /\ (existsb ptakes (pm_ops d') = true -> pm_m d' = Some m).
Proof. exact pfit_trained. Qed.
Print Assumptions C33_fit_trains.

(* C33: ParametricDiscreteModel.fit(parameters, states) fits the successive pairs of snapshots of each parameter, with as many inputs as pairs. *)
Theorem C33_discrete_pairs :
  forall X d mus r ks Qs inputs,
  0 < r -> Forall2 (fun k Q => 1 < k /\ is_mat r k Q) ks Qs ->
  exists Ss Ns, Forall2 (fun k S0 => is_mat r (k - 1) S0) ks Ss /\ Forall2 (fun k N => is_mat r (k - 1) N) ks Ns /\
    (forall t k Q S0 N j, nth_error ks t = Some k -> nth_error Qs t = Some Q -> nth_error Ss t = Some S0 -> nth_error Ns t = Some N ->
       j + 1 < k -> colv r S0 j = colv r Q j /\ colv r N j = colv r Q (j + 1)) /\
    pdiscrete_fit X d mus Qs None inputs = pfit X d mus (map M Ss) (map M Ns) (option_map (map2 (fun k => cut (k - 1)) ks) inputs).
Proof. exact pdiscrete_pairs. Qed.
Print Assumptions C33_discrete_pairs.

(* C33: with the next states given, it fits those, with as many inputs as states. *)
Theorem C33_discrete_given :
  forall X d mus r ks Ss next inputs,
  0 < r -> Forall2 (fun k S0 => is_mat r k S0) ks Ss ->
  pdiscrete_fit X d mus Ss (Some next) inputs = pfit X d mus (map M Ss) next (option_map (map2 cut ks) inputs).
Proof. exact pdiscrete_given. Qed.
Print Assumptions C33_discrete_given.

(* C33, false: a model with a known interpolated operator and others to learn can be fitted. fit() never succeeds. *)
Theorem C33_known_interpolated_refuted :
  forall X d mus states lhs inputs i t d',
  pext_ok X -> preach X d -> In i (pm_known d) -> nth_error (pm_ops d) i = Some (PItp t) -> pm_intrusive d = false ->
  pfit X d mus states lhs inputs <> (d', Ok tt).
Proof. exact known_interpolated. Qed.
Print Assumptions C33_known_interpolated_refuted.

(* C34: at each training parameter the fitted InterpModel has the operators that a separate model learns from the data of that parameter. *)
Theorem C34_separate_fits :
  forall X d mus states lhs inputs d' s,
  pext_ok X -> ireach X d -> fit_args (im_base d) mus states lhs inputs -> NoDup mus -> pm_intrusive (im_base d) = false -> pm_solver (im_base d) = Some s ->
  ifit X d mus states lhs inputs = (d', Ok tt) -> forall b, b < length mus ->
  exists m0 m1 e, separate (im_base d) s = Ok m0 /\ fit (px_l X) m0 (nth b states (V [])) (nth b lhs (V [])) (dinput inputs b) = (m1, Ok tt) /\
    snd (pevaluate (im_base d') (nth b mus (PS 0))) = Ok e /\ m_ops e = m_ops m1.
Proof. exact C34_fits. Qed.
Print Assumptions C34_separate_fits.

(* C34, false: the same if some operators are known. They are subtracted from the data twice. *)
Theorem C34_known_operators_refuted :
  exists X args d mus states lhs d' s m0 m1 e, pext_ok X /\ Forall valid_parg args /\ imk_model KContinuous args SNone = Ok d /\ pm_solver (im_base d) = Some s /\
  fit_args (im_base d) mus states lhs None /\ NoDup mus /\ ifit X d mus states lhs None = (d', Ok tt) /\
  mk_model KContinuous false [AOp (knw (OConst [1]%R)); AOp (unk CLin)] (SObj s) = Ok m0 /\ fit (px_l X) m0 (nth 0 states (V [])) (nth 0 lhs (V [])) None = (m1, Ok tt) /\
  (forall o, nth_error (pm_ops (im_base d)) 0 = Some o -> snd (pop_eval o (nth 0 mus (PS 0))) = Ok (knw (OConst [1]%R))) /\
  snd (pevaluate (im_base d') (nth 0 mus (PS 0))) = Ok e /\ m_ops e <> m_ops m1.
Proof. exact known_subtracted_twice. Qed.
Print Assumptions C34_known_operators_refuted.

(* ---- concrete cases ---------------------------------------------------------------------------------------------- *)
Example C33_example : pext_ok X1 /\ preach X1 pm0 /\ fit_args pm0 musA sts0 lhsA None /\ NoDup musA /\ pm_intrusive pm0 = false /\ pm_solver pm0 = Some new_plain /\
  pfit X1 pm0 musA sts0 lhsA None = (pm1, Ok tt) /\ trained_p 1 1 pm1 /\ pinput_for pm1 1 None /\ coeffs_ok (pm_ops pm1) (PV [2; 1]%R) /\ ptuned X1 musA sts0 lhsA None pm1 /\
  exists e, snd (pevaluate pm1 (PV [2; 1]%R)) = Ok e /\ m_ops e = [knw (OLin [[2 * 3 + 1 * 5]]%R)].
Proof. split; [exact X1_ok|]. split; [exact pm0_reach|]. split; [exact argsA|]. split; [exact musA_nodup|]. split; [auto|]. split; [auto|]. split; [exact pm0_fit|]. split; [exact pm1_trained|]. split; [discriminate|].
  split; [intros a [[= <-]|[]]; eexists; split; reflexivity|]. split; [|exact pm1_eval]. apply (pt_fit X1 _ _ _ _ pm0); auto using pm0_reach, argsA, musA_nodup, pm0_fit. Qed.
Example C33_example_discrete : Forall2 (fun k Q => 1 < k /\ is_mat 1 k Q) [2; 2] [[[1; 3]]; [[1; 5]]]%R /\ pdiscrete_fit X1 pm0 musA [[[1; 3]]; [[1; 5]]]%R None None = (pm1, Ok tt).
Proof. split; [constructor; [|constructor; [|constructor]]; (split; [lia|split; repeat constructor])|]. unfold pdiscrete_fit. cbn [map removelast tl].
  assert (E : pfit X1 pm0 musA [M [[1]]; M [[1]]]%R [M [[3]]; M [[5]]]%R None = pfit X1 pm0 musA sts0 lhsA None) by reflexivity. rewrite E. exact pm0_fit. Qed.
Example C33_example_refit : prefit X1 pm1 = (pm1, Ok tt).
Proof. unfold prefit. cbn [pm_intrusive pm_solver pm1 pmA px_l X1]. rewrite plain_eye. reflexivity. Qed.
Example C33_example_known_interpolated : exists d, pmk_model KContinuous [POp (PItp kt0); POp (PItp lt0)] SNone = Ok d /\ preach X1 d /\ In 0 (pm_known d) /\ nth_error (pm_ops d) 0 = Some (PItp kt0) /\ pm_intrusive d = false.
Proof. exists (base1 [PItp kt0; PItp lt1]). split; [reflexivity|]. split; [|cbn; auto]. apply (preach_new X1 KContinuous [POp (PItp kt0); POp (PItp lt0)] SNone); [|exact I|reflexivity].
  constructor; [apply kt0_valid|constructor; [apply lt0_valid|constructor]]. Qed.
Example C34_example : pext_ok X1 /\ ireach X1 im0 /\ fit_args (im_base im0) mus0 sts0 lhs0 None /\ NoDup mus0 /\ pm_intrusive (im_base im0) = false /\ pm_solver (im_base im0) = Some new_plain /\
  ifit X1 im0 mus0 sts0 lhs0 None = (im0', Ok tt) /\ exists e, snd (pevaluate (im_base im0') (PS 1)) = Ok e /\ m_ops e = [knw (OLin [[3]]%R)].
Proof. split; [exact X1_ok|]. split; [exact im0_reach|]. split. { split; [repeat constructor|]. split; [repeat constructor|]. split; [exact I|]. apply Forall_forall. intros mu _ a [K|[]]. discriminate. }
  split. { constructor; [intros [K|[]]; injection K; lra|]. constructor; [intros []|constructor]. } split; [auto|]. split; [auto|]. split; [exact im0_fit|]. eexists. split; reflexivity. Qed.
