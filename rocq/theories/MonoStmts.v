(* MonoStmts.v -- the lemmas behind Prop_Models.v, for models with a history. *)
From Coq Require Import ZArith String.
From Verif Require Import TupleFinal JacProofs GalProofs.
From Verif Require Export MonoEx.
#[local] Open Scope nat_scope.

Lemma tr_inv X d r : trained X d r -> minv X d /\ check_trained d = Ok tt /\ m_r d = Some r.
Proof. intros (HX & HR & HT & Hr). split; auto. apply reach_minv; auto. Qed.

Lemma C29_sum X d r q u : trained X d r -> is_vec r q -> input_for d u -> exists ys y,
  Forall2 (fun o yo => op_apply o (V q) (option_map V u) = Ok (V yo) /\ is_vec r yo) (m_ops d) ys /\
  rhs d (V q) (option_map V u) = Ok (V y) /\ is_vec r y /\ forall i, i < r -> vget y i = lsum (map (fun yo => vget yo i) ys).
Proof. intros HT Hq HU. destruct (tr_inv X d r HT) as (HM & H1 & H2). exact (rhs_sum X d r q u HM H1 H2 Hq HU). Qed.
Lemma C29_order X d r q u l : trained X d r -> is_vec r q -> input_for d u -> Permutation l (m_ops d) ->
  rhs (with_ops l d) (V q) (option_map V u) = rhs d (V q) (option_map V u).
Proof. intros HT Hq HU. destruct (tr_inv X d r HT) as (HM & H1 & H2). exact (rhs_order X d r q u HM H1 H2 Hq HU l). Qed.
Lemma C29_columns X d r k Q U : trained X d r -> is_mat r k Q -> 0 < k ->
  (m_hasin d = true -> exists m U0, m_m d = Some m /\ U = Some U0 /\ is_mat m k U0) ->
  exists Y, rhs d (M Q) (option_map M U) = Ok (M Y) /\ is_mat r k Y /\
    forall j, j < k -> rhs d (V (colv r Q j)) (option_map (fun W => V (colv (nrows W) W j)) U) = Ok (V (colv r Y j)).
Proof. intros HT HQ Hk HU. destruct (tr_inv X d r HT) as (HM & H1 & H2). exact (rhs_columns X d r k Q U HM H1 H2 HQ Hk HU). Qed.
Lemma C29_jac_sum X d r q u junk J : trained X d r -> is_vec r q -> input_for d u -> model_jacobian junk d q u = Ok J ->
  is_mat r r J /\ exists Js, Forall2 (fun o Jo => op_jacobian junk o q u = Ok Jo) (m_ops d) Js /\
    forall i j, i < r -> j < r -> mget J i j = lsum (map (fun Jo => jget Jo i j) Js).
Proof. intros HT Hq HU. destruct (tr_inv X d r HT) as (HM & H1 & H2). apply (jacobian_sum X d r q u HM H1 H2 HU junk). Qed.
Lemma C29_jac_order X d r q u junk J l : trained X d r -> is_vec r q -> input_for d u -> Permutation l (m_ops d) ->
  model_jacobian junk d q u = Ok J -> model_jacobian junk (with_ops l d) q u = Ok J.
Proof. intros HT Hq HU. destruct (tr_inv X d r HT) as (HM & H1 & H2). apply (jacobian_order X d r q u HM H1 H2 HU junk). Qed.
Lemma C29_jac_defined X d r q u junk : trained X d r -> is_vec r q -> input_for d u ->
  (forall o dg H, In o (m_ops d) -> mo_ent o = Some (OPoly dg H) -> newton_guard dg r) -> exists J, model_jacobian junk d q u = Ok J.
Proof. intros HT Hq HU. destruct (tr_inv X d r HT) as (HM & H1 & H2). apply (jacobian_defined X d r q u HM H1 H2 Hq HU junk). Qed.
Lemma C29_jac_derivative X d r q u junk J dir : trained X d r -> is_vec r q -> input_for d u -> (forall k, length (junk k) = k) ->
  model_jacobian junk d q u = Ok J -> is_vec r dir -> exists f : R -> vec,
    (forall t, rhs d (V (along q dir t)) (option_map V u) = Ok (V (f t))) /\
    forall i, i < r -> derivable_pt_lim (fun t => vget (f t) i) 0 (vget (matvec J dir) i).
Proof. intros HT Hq HU Hj. destruct (tr_inv X d r HT) as (HM & H1 & H2). apply (jacobian_is_derivative X d r q u HM H1 H2 Hq HU junk Hj). Qed.
(* ContinuousModel: rhs(t, q, input_func) = rhs(q, input_func(t)) *)
Lemma C29_continuous d t q f : cont_rhs d t q f = if m_hasin d then match f with Some g => rhs d q (Some (g t)) | None => Err TypeError end else rhs d q None.
Proof. apply cont_rhs_ok. Qed.
Lemma C29_continuous_jac d t q f junk : cont_jacobian junk d t q f = if m_hasin d then match f with Some g => model_jacobian junk d q (Some (g t)) | None => Err TypeError end else model_jacobian junk d q None.
Proof. unfold cont_jacobian, cont_input. destruct (m_hasin d); auto. destruct f; auto. Qed.

Lemma C30_rec X d r q0 n inputs : trained X d r -> is_vec r q0 -> enough_inputs d inputs n -> 1 <= n -> exists Q,
  predict d (V q0) (Z.of_nat n) inputs = Ok Q /\ is_mat r n Q /\ colv r Q 0 = q0 /\
  forall j, j + 1 < n -> rhs d (V (colv r Q j)) (step_input d inputs j) = Ok (V (colv r Q (j + 1))).
Proof. intros HT. destruct (tr_inv X d r HT) as (HM & H1 & H2). apply (predict_recurrence X d r HM H1 H2). Qed.
Lemma C30_pre X d r q0 n n' inputs Q : trained X d r -> is_vec r q0 -> enough_inputs d inputs n -> 1 <= n' -> n' <= n ->
  predict d (V q0) (Z.of_nat n) inputs = Ok Q -> predict d (V q0) (Z.of_nat n') inputs = Ok (mcols 0 n' Q).
Proof. intros HT. destruct (tr_inv X d r HT) as (HM & H1 & H2). apply (predict_prefix X d r HM H1 H2). Qed.
Lemma C30_res X d r q0 n j inputs Q : trained X d r -> is_vec r q0 -> enough_inputs d inputs n -> j < n ->
  predict d (V q0) (Z.of_nat n) inputs = Ok Q -> predict d (V (colv r Q j)) (Z.of_nat (n - j)) (later j inputs) = Ok (mcols j n Q).
Proof. intros HT. destruct (tr_inv X d r HT) as (HM & H1 & H2). apply (predict_restart X d r HM H1 H2). Qed.
Lemma C30_ignores d q0 n inputs : m_hasin d = false -> predict d q0 n inputs = predict d q0 n None.
Proof. intros H. unfold predict. destruct (check_trained d); auto. cbn [bind]. destruct q0 as [q|A], (m_r d) as [r|]; auto. rewrite H. destruct (negb (length q =? r)); auto. Qed.
Lemma C30_bad_state d r q0 n inputs : check_trained d = Ok tt -> m_r d = Some r ->
  (match q0 with V q => length q <> r | M _ => True end) -> predict d q0 n inputs = Err DimensionalityError.
Proof. apply predict_rejects. Qed.
Lemma C30_bad_steps d r q0 n inputs : check_trained d = Ok tt -> m_r d = Some r -> length q0 = r ->
  (n < 1)%Z \/ (m_hasin d = true /\ (inputs = None \/ exists u, inputs = Some (UArr u) /\ (m_m d <> Some (nrows (atleast_2d u)) \/ (Z.of_nat (ncols (atleast_2d u)) < n - 1)%Z))) ->
  predict d (V q0) n inputs = Err ValueError.
Proof. apply predict_few. Qed.
Lemma C30_bad_callable d r q0 n : check_trained d = Ok tt -> m_r d = Some r -> length q0 = r -> m_hasin d = true -> (1 <= n)%Z ->
  predict d (V q0) n (Some UCall) = Err TypeError.
Proof. apply predict_callable. Qed.
Lemma C30_untrained d q0 n inputs : check_trained d <> Ok tt -> predict d q0 n inputs = Err AttributeError.
Proof. intros H. apply predict_untrained. unfold check_trained in *. destruct (m_r d); auto. destruct (m_hasin d && _); auto. destruct (existsb uncal (m_ops d)); auto. congruence. Qed.

Lemma C31_plain r ks Qs : 0 < r -> trajectories r ks Qs -> exists S N, stack_trajectories Qs None = Ok (S, N, None) /\
  is_mat r (lsumn (map (fun k => k - 1) ks)) S /\ is_mat r (lsumn (map (fun k => k - 1) ks)) N /\
  forall t Q k j, nth_error Qs t = Some Q -> nth_error ks t = Some k -> j + 1 < k ->
    colv r S (pairs_before t ks + j) = colv r Q j /\ colv r N (pairs_before t ks + j) = colv r Q (j + 1).
Proof. intros Hr HQ. exact (stack_noinputs r ks Qs Hr HQ). Qed.
Lemma C31_two r ks Qs m us : 0 < r -> trajectories r ks Qs -> 0 < m -> inputs2 m ks us -> exists S N U, stack_trajectories Qs (Some us) = Ok (S, N, Some (M U)) /\
  stack_trajectories Qs None = Ok (S, N, None) /\ is_mat m (lsumn (map (fun k => k - 1) ks)) U /\
  forall t u k j, nth_error us t = Some u -> nth_error ks t = Some k -> j + 1 < k -> colv m U (pairs_before t ks + j) = colv m (atleast_2d u) j.
Proof. intros Hr HQ Hm HI. destruct (stack_inputs r ks Qs Hr HQ m us Hm HI) as (S & N & U & E & _ & HU & HV). exists S, N, U. split; auto. split; auto.
  unfold stack_trajectories in *. destruct (hstack_r (map (map (@removelast R)) Qs)); [|discriminate]. cbn [bind] in *. destruct (hstack_r (map (map (@tl R)) Qs)); [|discriminate]. cbn [bind] in *.
  destruct (hstack_arr _); [|discriminate]. cbn [bind] in E. injection E as -> -> _. auto. Qed.
Lemma C31_one r ks Qs us : 0 < r -> trajectories r ks Qs -> inputs1 ks us -> exists S N w, stack_trajectories Qs (Some us) = Ok (S, N, Some (V w)) /\
  stack_trajectories Qs None = Ok (S, N, None) /\ length w = lsumn (map (fun k => k - 1) ks) /\
  forall t u k j, nth_error us t = Some u -> nth_error ks t = Some k -> j + 1 < k -> exists v, u = V v /\ vget w (pairs_before t ks + j) = vget v j.
Proof. intros Hr HQ HI. destruct (stack_inputs_1d r ks Qs Hr HQ us HI) as (S & N & U & E & _ & HU & HV). exists S, N, U. split; auto. split; auto.
  unfold stack_trajectories in *. destruct (hstack_r (map (map (@removelast R)) Qs)); [|discriminate]. cbn [bind] in *. destruct (hstack_r (map (map (@tl R)) Qs)); [|discriminate]. cbn [bind] in *.
  destruct (hstack_arr _); [|discriminate]. cbn [bind] in E. injection E as -> -> _. auto. Qed.
Lemma C31_fit X d r k Q inputs : m_frozen d = false -> 0 < r -> 1 < k -> is_mat r k Q -> exists S N, is_mat r (k - 1) S /\ is_mat r (k - 1) N /\
  (forall j, j + 1 < k -> colv r S j = colv r Q j /\ colv r N j = colv r Q (j + 1)) /\
  discrete_fit X d (M Q) None inputs = fit X d (M S) (M N) (option_map (cut (k - 1)) inputs).
Proof. apply discrete_pairs. Qed.
(* the inputs of the pairs: the first k - 1 *)
Lemma C31_cut m k c U j : is_mat m k U -> c <= k -> is_mat m c (map (firstn c) U) /\ (j < c -> colv m (map (firstn c) U) j = colv m U j).
Proof. intros HU Hc. split.
  - destruct HU as [HL HF]. apply is_mat_map; auto. intros row Hrow. rewrite Forall_forall in HF. specialize (HF row Hrow). rewrite firstn_length. unfold is_vec in HF. lia.
  - intros Hj. apply (vec_ext m); auto using is_vec_colv. intros i Hi. rewrite !vget_colv by auto. apply (mget_firstn m k); auto. Qed.

Lemma C32_accepts X args d d' : (forall s, m_solver d = Some s -> winv X s) -> (m_frozen d = true -> m_solver d = None) -> Forall valid_arg args ->
  set_operators args d = (d', Ok tt) -> consistent d'.
Proof. intros HW HF HV E. apply (minv_consistent X). eapply set_operators_minv; eauto. Qed.
Lemma C32_needs X d states lhs : lsx_ok X -> reach X d -> m_frozen d = false -> m_intrusive d = false -> m_hasin d = true -> exists d' e, fit X d states lhs None = (d', Err e).
Proof. intros HX HR. apply fit_needs_inputs. apply reach_minv; auto. Qed.
Lemma C32_ignores X d states lhs u : lsx_ok X -> reach X d -> m_hasin d = false -> fit X d states lhs u = fit X d states lhs None.
Proof. intros HX HR. apply fit_ignores_inputs. apply reach_minv; auto. Qed.
Lemma C32_rhs_needs X d q : lsx_ok X -> reach X d -> m_hasin d = true -> exists e, rhs d q None = Err e.
Proof. intros HX HR. apply (rhs_needs_input X). apply reach_minv; auto. Qed.
Lemma C32_rhs_ignores X d q u : lsx_ok X -> reach X d -> m_hasin d = false -> rhs d q u = rhs d q None.
Proof. intros HX HR. apply (rhs_ignores_input X). apply reach_minv; auto. Qed.
(* the trained check *)
Lemma C32_trained_check X d : lsx_ok X -> reach X d -> (check_trained d = Ok tt <-> forall o, In o (m_ops d) -> mo_ent o <> None).
Proof. intros HX HR. assert (H := reach_minv X d HX HR). split.
  - intros HT o Ho. assert (HA := trained_allcal d HT o Ho). unfold uncal in HA. destruct (mo_ent o); congruence.
  - intros HA. apply (allcal_trained d (mi_s X d H)). intros o Ho. unfold uncal. specialize (HA o Ho). destruct (mo_ent o); congruence. Qed.

Lemma C55_copy X d : lsx_ok X -> reach X d -> check_trained d = Ok tt -> exists d', copy_model d = Ok d' /\ model_eqb d' d = true /\ m_ops d' = m_ops d /\
  check_trained d' = Ok tt /\ forall q u, rhs d' q u = rhs d q u.
Proof. intros HX HR HT. destruct (copy_trained X d (reach_minv X d HX HR) HT) as (d' & H1 & H2 & H3 & H4 & H5 & _). exists d'. auto. Qed.

Lemma C59_rhs X solve junk d d' n r Vr Wr : trained X d n -> solve_spec solve -> (forall k, length (junk k) = k) -> 0 < r -> is_mat n r Vr -> is_mat n r (testbasis Vr Wr) ->
  matmul (mT (testbasis Vr Wr)) Vr = eye r \/ allclose (matmul (mT (testbasis Vr Wr)) Vr) (eye r) = false ->
  galerkin_model solve junk d Vr Wr = Ok d' ->
  m_kind d' = m_kind d /\ map mo_cls (m_ops d') = map mo_cls (m_ops d) /\ m_r d' = Some r /\ m_m d' = m_m d /\ check_trained d' = Ok tt /\
  forall q u, is_vec r q -> input_for d u -> exists y z,
    rhs d (V (matvec Vr q)) (option_map V u) = Ok (V y) /\ rhs d' (V q) (option_map V u) = Ok (V z) /\ is_vec r z /\
    matvec (matmul (mT (testbasis Vr Wr)) Vr) z = matvec (mT (testbasis Vr Wr)) y.
Proof. intros HT Hs Hj Hr HV HW HC HG. destruct (tr_inv X d n HT) as (HM & H1 & H2). exact (galerkin_model_rhs X solve junk d d' n r Vr Wr HM H1 H2 Hs Hj Hr HV HW HC HG). Qed.
Lemma C59_def X solve junk d n r Vr Wr : trained X d n -> solve_spec solve -> (forall k, length (junk k) = k) -> 0 < r -> is_mat n r Vr -> is_mat n r (testbasis Vr Wr) ->
  matmul (mT (testbasis Vr Wr)) Vr = eye r ->
  (forall o dg H, In o (m_ops d) -> mo_ent o = Some (OPoly dg H) -> newton_guard dg n) -> exists d', galerkin_model solve junk d Vr Wr = Ok d'.
Proof. intros HT Hs Hj Hr HV HW HC Hg. destruct (tr_inv X d n HT) as (HM & H1 & H2). destruct (trained_dims X d HM H1) as (n' & m & Hn' & Hm & En & Em & Em0 & HF).
  rewrite H2 in En. injection En as <-. assert (HI := mi_s X d HM). unfold galerkin_model.
  match goal with |- context[mapM ?f (m_ops d)] => assert (HL : exists l, mapM f (m_ops d) = Ok l /\ Forall (sized r m) l /\ length l = length (m_ops d)) end.
  { clear HM H1 H2 HI Em0 Em HT. revert Hg HF. generalize (m_ops d). intros lo Hg HF. induction HF as [|o ops (e & Ee & Hc & Hw) HF IH]; [exists []; auto|]. destruct IH as (l & El & Hl & HL). { intros o' dg H Ho. apply Hg. now right. }
    destruct (galerkin_total solve junk n r m e Vr Wr Hs Hj Hn' Hr Hm Hw HV HW (or_introl HC) (or_introl HC)) as [g EG].
    { intros dg H ->. apply (Hg o dg H); auto. now left. }
    eexists. cbn [mapM]. rewrite Ee, EG. cbn [bind]. rewrite El. split; [reflexivity|]. cbn [length]. split; [|lia]. constructor; auto. exists g. cbn. split; auto.
    split; [rewrite <- Hc; eapply galerkin_cls; eauto|]. eapply (galerkin_commutes solve junk n r m e Vr Wr); eauto. }
  destruct HL as (l & El & Hl & HL). rewrite El. cbn [bind]. assert (Hne : l <> []). { assert (Hx := si_ne d HI). intros ->. destruct (m_ops d); [congruence|discriminate]. }
  rewrite (mk_model_sized _ _ r m l SNone Hne Hr Hl). eauto. Qed.
