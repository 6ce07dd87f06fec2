(* BayesEx.v -- a concrete Bayesian reduced-order model: its posterior, draws, a search, and the claims that fail. *)
From Coq Require Import ZArith Reals Lia Lra String.
From Verif Require Import LinAlg MatAlg PreProofs MonoHist MonoFinal MonoEx RomParts RomProofs RomFit RomEx GridFinal RegselEx.
From Verif Require Export BayesDiscrete.
#[local] Open Scope nat_scope.

(* inverses of 1 x 1 matrices *)
Definition MX1 : mvn := {| x_cov := fun P => match P with [[a]] => if Req_EM_T a 0 then Err LinAlgError else Ok [[/ a]]%R | _ => Err LinAlgError end; x_psd := fun _ => Ok tt |}.
Lemma MX1_inverts : inverts MX1.
Proof. intros w P C Hw HP E. cbn in E. destruct P as [|[|a [|]] [|]]; try discriminate. destruct (Req_EM_T a 0) as [|Ha]; [discriminate|]. injection E as <-. assert (w = 1) as -> by (destruct HP as [H _]; cbn in H; lia).
  split; [split; repeat constructor|]. intros [|i] [|j] Hi Hj; try lia. cbn. field. auto. Qed.
(* the generator counts; the samples are the mean plus the count times the first variance *)
Definition nrm (v : vec) (C : mat) (g : nat) : nat * vec := (S g, map (fun x => x + INR g * mget C 0 0)%R v).
Lemma nrm_size : keeps_size nrm. Proof. intros v C g. apply map_length. Qed.
(* ... or the mean *)
Definition nrm0 (v : vec) (C : mat) (g : nat) : nat * vec := (S g, v).
Lemma nrm0_size : keeps_size nrm0. Proof. intros v C g. reflexivity. Qed.

Definition sig (g : R) : R := ((16 + (19 / 2) * (19 / 2) - 100 * (25 / (25 + g * g))) / 2)%R.
Lemma sig_pos g : (1 < sig g)%R.
Proof. unfold sig. assert (25 / (25 + g * g) <= 1)%R; [|lra]. apply (Rmult_le_reg_r (25 + g * g)); [nra|]. unfold Rdiv. rewrite Rmult_assoc, Rinv_l by nra. nra. Qed.
Definition p50 (g : R) : post := {| po_means := [[50 / (25 + g * g)]]%R; po_covs := [[[/ (/ sig g * (25 + g * g))]]]%R; po_prec := true |}.
Lemma post50 k ops g : posterior_of X2 MX1 (gen k ops (Some 1) (Some g) (Some pre2)) = Ok (p50 g).
Proof. unfold posterior_of. cbn [gen m_solver lsq_posterior]. unfold l2_posterior. cbn [l2_solve l2_pre l2_reg]. unfold l2_core. cbn [pre2 sp_Z sp_svals nrows length repeat]. cbn [mapM]. unfold l2_weights. cbn [mapM bind].
  destruct (Req_EM_T _ 0) as [E|_]; [nra|]. cbn [map2 mapM bind]. replace (matmul _ _) with [[50 / (25 + g * g)]]%R by (cbn; do 2 f_equal; field; nra). cbn [bind]. unfold l2_regresidual. cbn [l2_pre l2_reg].
  assert (K : (vnorm2 [3 * (50 / (25 + g * g)) + 0 - 4; 4 * (50 / (25 + g * g)) + 0 - 19 / 2] + g * g * vnorm2 [50 / (25 + g * g)] = 16 + 19 / 2 * (19 / 2) - 100 * (25 / (25 + g * g)))%R) by (unfold vnorm2, lsum; cbn; field; nra).
  unfold base_residual. cbn -[check_sigmas mscale]. unfold check_sigmas. cbn -[eps mscale]. destruct (Rlt_dec _ eps) as [Hl|_].
  { exfalso. assert (He : (eps < 1)%R) by (unfold eps; apply (Rmult_lt_reg_l (2 ^ 52)); [lra|rewrite Rinv_r; lra]). assert (Hs := sig_pos g). unfold sig in Hs.
    rewrite K in Hl. lra. }
  cbn. match goal with |- context [Req_EM_T ?x 0] => replace x with (/ sig g * (25 + g * g))%R end.
  2:{ rewrite K. unfold sig. replace (INR 2) with 2%R by (cbn; lra). f_equal. lra. }
  destruct (Req_EM_T _ 0) as [E|_]; [|cbn; reflexivity]. exfalso. assert (Hs := sig_pos g). apply Rmult_integral in E. destruct E as [E|E]; [|nra]. assert (sig g <> 0)%R by lra. apply Rinv_neq_0_compat in H. contradiction. Qed.

(* a draw *)
Lemma draw50 {G} (normal : vec -> mat -> G -> G * vec) k ops g0 pre g h h' a : map mo_cls ops = [CLin] -> normal [50 / (25 + g * g)]%R [[/ (/ sig g * (25 + g * g))]]%R h = (h', [a]) ->
  draw normal (Build_bstate (gen k ops (Some 1) g0 pre) (Some (p50 g)) h) = (Build_bstate (gen k [knw (OLin [[a]])] (Some 1) g0 pre) (Some (p50 g)) h', Ok tt).
Proof. intros Ho E. destruct ops as [|[c e] [|]]; try discriminate. injection Ho as ->. unfold draw, rvs. cbn. rewrite E. cbn. reflexivity. Qed.

(* the model that the first fit of the search prepares: the regularizer was removed *)
Definition rB (k : kind) : brom := {| br_rom := rL k; br_post := None |}.
Definition rB2 (k : kind) : rom := {| rm_parts := noP; rm_ddt := None; rm_model := gen k [unk CLin] (Some 1) None (Some pre2) |}.
Lemma rB_fit : rom_fit_with (fit_solver X2) (reset_solver (rL KDiscrete)) (Several (map M [[[3; 4; 19 / 2]]%R]) None None) false None = (rB2 KDiscrete, Ok (map M [E34])).
Proof. unfold rom_fit_with. cbn -[fit_solver]. unfold fit_solver. cbn -[svd2 lsq_fit]. cbn [lsq_fit x_lsvd X2]. unfold l2_fit. rewrite base2. reflexivity. Qed.
Lemma rB_fit_c : rom_fit_with (fit_solver X2) (reset_solver (rL KContinuous)) (Several (map M [E34]) (Some (map M [[[4; 19 / 2]]%R])) None) false None = (rB2 KContinuous, Ok (map M [E34])).
Proof. unfold rom_fit_with. cbn -[fit_solver]. unfold fit_solver. cbn -[svd2 lsq_fit]. cbn [lsq_fit x_lsvd X2]. unfold l2_fit. rewrite base2. reflexivity. Qed.
Lemma update50 k ops g0 q (h : nat) g : (0 < g)%R -> bupdate X2 MX1 fac (Build_bstate (gen k ops (Some 1) g0 (Some pre2)) q h) (SpecGrid.PS (F g)) = (Build_bstate (gen k ops (Some 1) (Some g) (Some pre2)) (Some (p50 g)) h, Ok tt).
Proof. intros Hg. unfold bupdate. cbn [fac bs_model gen m_solver bayesian_solver andb reg_fits negb]. unfold set_regularizer. cbn [gen m_solver lsq_setreg wrap]. unfold l2_set, wrap. destruct (Rlt_dec g 0) as [|_]; [lra|]. cbn [with_solver].
  unfold initialize. change (posterior_of X2 MX1 _) with (posterior_of X2 MX1 (gen k ops (Some 1) (Some g) (Some pre2))). rewrite (post50 k ops g). reflexivity. Qed.
Definition t1 : sel_test model := {| st_predict := fun d => pr_exact d (V [1]%R) 3%Z None; st_unstable := discrete_unstable [1]%R (Some 2%R) |}.
Definition c1 : sel_case model := {| sc_predict := fun d => pr_exact d (V [3]%R) 3%Z None; sc_unstable := sel_unstable_discrete E34 (Some (5 * (1 / 2))%R); sc_error := error_discrete E34 |}.
Lemma t1_is : process_dtest pr_exact noP tc = Ok t1. Proof. reflexivity. Qed.
Lemma lim34 : limit_of 5 E34 = Ok (Some (5 * (1 / 2))%R).
Proof. destruct (limit_total 1 2 5 E34 ltac:(split; repeat constructor) ltac:(lia) ltac:(lia)) as [lim El]. rewrite El. destruct (limit_spec 1 2 5 E34 lim ltac:(split; repeat constructor) El) as (_ & _ & m & Hm & Elim).
  rewrite (spread34 m Hm) in Elim. destruct (Req_EM_T _ 0) as [|_]; [lra|]. subst lim. reflexivity. Qed.
Lemma c1_is : dcase pr_exact 5 1 E34 None = Ok c1.
Proof. unfold dcase. rewrite lim34. reflexivity. Qed.
Lemma t1_passes k a g pre : (0 <= a <= 1)%R -> evaluate (gen k [knw (OLin [[a]])] (Some 1) g pre) t1 = Ok true.
Proof. intros Ha. unfold evaluate. cbn [t1 st_predict]. rewrite run3. cbn [bind st_unstable t1]. unfold discrete_unstable. cbn. assert (K : forall x, (0 <= x <= 1)%R -> (if Rlt_dec 2 (Rabs (x - 1)) then true else false) = false).
  { intros x Hx. destruct (Rlt_dec _ _) as [Hl|]; auto. unfold Rabs in Hl. destruct (Rcase_abs _); lra. } rewrite !K by nra. reflexivity. Qed.
Lemma c1_stable k g pre : exists s, sc_predict c1 (gen k [knw (OLin [[1]]%R)] (Some 1) g pre) = Ok s /\ sc_unstable c1 s = false /\ s = [[F 3; F (1 * 3); F (1 * (1 * 3))]]%R.
Proof. eexists. split; [apply run3|]. split; [|reflexivity]. cbn -[sel_unstable_discrete]. unfold sel_unstable_discrete. cbn. unfold vmean. cbn.
  assert (K : forall x, (1 <= x <= 4)%R -> (if Rlt_dec (5 * (1 / 2)) (Rabs (x - (3 + (4 + 0)) / (1 + 1))) then true else false) = false).
  { intros x Hx. destruct (Rlt_dec _ _) as [Hl|]; auto. unfold Rabs in Hl. destruct (Rcase_abs _); lra. } rewrite !K by lra. reflexivity. Qed.
Lemma c1_unstable k g pre : exists s, sc_predict c1 (gen k [knw (OLin [[2 / 5]]%R)] (Some 1) g pre) = Ok s /\ sc_unstable c1 s = true.
Proof. eexists. split; [apply run3|]. cbn -[sel_unstable_discrete]. unfold sel_unstable_discrete. cbn. unfold vmean, lsum. cbn. destruct (Rlt_dec _ (Rabs (2 / 5 * (2 / 5 * 3) - _))) as [|Hl]; [rewrite !Bool.orb_true_r; reflexivity|]. exfalso. apply Hl. unfold Rabs. destruct (Rcase_abs _); lra. Qed.
Definition s3 : sol := [[F 3; F (1 * 3); F (1 * (1 * 3))]]%R.
Lemma c1_mean : exists e, (do m <- mean_draws 2 [s3; s3]; sc_error c1 m) = Ok (F e).
Proof. cbn -[sc_error]. change (sc_error c1) with (error_discrete E34). set (m := [[_; _]]).
  assert (HR : relative_error 1 2 E34 m (sqrt 1 / sqrt 25)).
  { exists [[3; 3]]%R. split; [split; repeat constructor|]. split; [|split; [unfold sumsq, E34; cbn; unfold Rsqr; lra|]].
    - intros [|i] j Hi Hj; [|lia]. destruct j as [|[|j]]; [| |lia]; cbn; f_equal; field.
    - unfold gap2, sumsq, E34. cbn. unfold Rsqr. do 2 f_equal; [|f_equal]; lra. }
  destruct (error_total 1 2 2 E34 m) as [x Ex]; [lia|split; repeat constructor|reflexivity|repeat constructor|lia|]. exists (sqrt 1 / sqrt 25)%R.
  apply (error_spec 1 2 2); [lia|split; repeat constructor|reflexivity|repeat constructor|lia|]. exact HR. Qed.
Lemma draw5 k ops h : map mo_cls ops = [CLin] -> draw nrm0 (Build_bstate (gen k ops (Some 1) (Some 5%R) (Some pre2)) (Some (p50 5)) h) = (Build_bstate (gen k [knw (OLin [[1]]%R)] (Some 1) (Some 5%R) (Some pre2)) (Some (p50 5)) (S h), Ok tt).
Proof. intros Ho. apply draw50; auto. unfold nrm0. do 2 f_equal. field. Qed.
Lemma draw10 k ops h : map mo_cls ops = [CLin] -> draw nrm0 (Build_bstate (gen k ops (Some 1) (Some 10%R) (Some pre2)) (Some (p50 10)) h) = (Build_bstate (gen k [knw (OLin [[2 / 5]]%R)] (Some 1) (Some 10%R) (Some pre2)) (Some (p50 10)) (S h), Ok tt).
Proof. intros Ho. apply draw50; auto. unfold nrm0. do 2 f_equal. field. Qed.
Lemma try5 k ops g0 q h : map mo_cls ops = [CLin] -> exists e, btraining_error nrm0 X2 MX1 fac 2 [t1] [(2, c1)] 1 (Build_bstate (gen k ops (Some 1) g0 (Some pre2)) q h) (SpecGrid.PS (F 5)) =
  (Build_bstate (gen k [knw (OLin [[1]]%R)] (Some 1) (Some 5%R) (Some pre2)) (Some (p50 5)) (4 + h), Ok (F e)).
Proof. intros Ho. destruct c1_mean as [e Ee]. exists ((0 + e) / INR 1)%R. unfold btraining_error. rewrite (update50 k ops g0 q h 5) by lra. cbn [bs_post test_all test_draws].
  rewrite (draw5 k ops h Ho). cbn [bs_model]. rewrite t1_passes by lra. rewrite draw5 by reflexivity. cbn [bs_model]. rewrite t1_passes by lra. cbn [sum_draws case_draws].
  destruct (c1_stable k (Some 5%R) (Some pre2)) as (s & E1 & E2 & ->). do 2 (rewrite draw5 by reflexivity; cbn [bs_model]; rewrite E1, E2). change [[F 3; F (1 * 3); F (1 * (1 * 3))]]%R with s3. rewrite Ee. reflexivity. Qed.
Lemma try10 k ops g0 q h : map mo_cls ops = [CLin] -> btraining_error nrm0 X2 MX1 fac 2 [t1] [(2, c1)] 1 (Build_bstate (gen k ops (Some 1) g0 (Some pre2)) q h) (SpecGrid.PS (F 10)) =
  (Build_bstate (gen k [knw (OLin [[2 / 5]]%R)] (Some 1) (Some 10%R) (Some pre2)) (Some (p50 10)) (3 + h), Ok PInf).
Proof. intros Ho. unfold btraining_error. rewrite (update50 k ops g0 q h 10) by lra. cbn [bs_post test_all test_draws].
  rewrite (draw10 k ops h Ho). cbn [bs_model]. rewrite t1_passes by lra. rewrite draw10 by reflexivity. cbn [bs_model]. rewrite t1_passes by lra. cbn [sum_draws case_draws].
  destruct (c1_unstable k (Some 10%R) (Some pre2)) as (s & E1 & E2). rewrite draw10 by reflexivity. cbn [bs_model]. rewrite E1, E2. reflexivity. Qed.
(* the search: the regularizer 5 is selected; the model is left with an operator drawn for the regularizer 10 *)
Definition sel5 : brom := {| br_rom := {| rm_parts := noP; rm_ddt := None; rm_model := gen KDiscrete [knw (OLin [[2 / 5]]%R)] (Some 1) (Some 5%R) (Some pre2) |}; br_post := Some (p50 5) |}.
Lemma bayes_search : bayes_discrete nrm0 X2 MX1 pr_exact bd nm (rB KDiscrete) 0 (CNums [5; 10]%R) (Single [[3; 4; 19 / 2]]%R None None) false None fac true 1 5 2 [tc] = (sel5, 7, Ok tt).
Proof. unfold bayes_discrete. replace (rm_cont (br_rom (rB KDiscrete))) with false by reflexivity. cbn -[rom_fit_with bselect dcase process_dtest]. change (br_rom (rB KDiscrete)) with (rL KDiscrete).
  change [M [[3%R; 4%R; (19 / 2)%R]]] with (map M [[[3; 4; 19 / 2]]%R]). rewrite rB_fit. cbn -[bselect dcase process_dtest]. rewrite c1_is. cbn -[bselect process_dtest]. rewrite t1_is. cbn -[bselect].
  assert (Hs : sort [5; 10]%R = [5; 10]%R) by (cbn; destruct (Rle_dec 5 10); [reflexivity|lra]).
  unfold bselect, gridsearch. cbn [process]. rewrite Hs. cbn [map]. unfold bstate_of. cbn [br_rom rB2 rm_model br_post]. cbn [grid]. destruct (try5 KDiscrete [unk CLin] None None 0 eq_refl) as [e Ee]. rewrite Ee. cbn [flt]. rewrite try10 by reflexivity. cbn [flt nth].
  rewrite (update50 KDiscrete _ (Some 10%R) (Some (p50 10)) (3 + (4 + 0)) 5) by lra. reflexivity. Qed.

(* ---- the claims that fail ---- *)
(* after the search the operators of the model are neither the posterior mean nor a sample of the posterior: they were drawn for another candidate *)
Theorem search_leaves_operators : exists (LX : lsx) (MX : mvn) PR bnd nmd b c T fac' tests b' g' d p A, lsx_ok LX /\ inverts MX /\ keeps_size nrm0 /\ steps_well PR /\ (forall x y, honest [] (bnd x y)) /\ (forall x, honest [] (nmd x)) /\
  bayes_discrete nrm0 LX MX PR bnd nmd b 0 c T false None fac' true 1 5 2 tests = (b', g', Ok tt) /\ rm_model (br_rom b') = d /\ br_post b' = Some p /\ operator_matrix d = Ok A /\
  A <> po_means p /\ forall g g1, ~ samples nrm0 p g A g1.
Proof. exists X2, MX1, pr_exact, bd, nm, (rB KDiscrete), (CNums [5; 10]%R), (Single [[3; 4; 19 / 2]]%R None None), fac, [tc], sel5, 7, (rm_model (br_rom sel5)), (p50 5), [[2 / 5]]%R.
  assert (Hne : (2 / 5 <> 50 / (25 + 5 * 5))%R) by (replace (50 / (25 + 5 * 5))%R with 1%R by field; lra).
  split; [exact X2_ok|]. split; [exact MX1_inverts|]. split; [exact nrm0_size|]. split; [exact pr_exact_steps|]. split; [cbn; auto|]. split; [cbn; auto|]. split; [exact bayes_search|]. do 3 (split; [reflexivity|]).
  split. { cbn [p50 po_means]. congruence. } intros g g1 (_ & gs & _ & _ & H). specialize (H 0 ltac:(cbn; lia)). cbn in H. unfold nrm0 in H. congruence. Qed.
(* a fit that raises replaces the model, not the posterior *)
Definition pre3 : svdpre := {| sp_D := [[3]; [4]]%R; sp_Z := [[3; 4]]%R; sp_svals := [5]%R; sp_ZPhi := [[5]]%R; sp_PsiT := [[1]]%R |}.

Definition b0 (q : option post) (ops : list mop) (rr : option nat) (pre : option svdpre) : brom := {| br_rom := {| rm_parts := noP; rm_ddt := None; rm_model := gen KContinuous ops rr (Some 0%R) pre |}; br_post := q |}.
Lemma base3 : svd_fit svd2 (M [[3]; [4]]%R) (M [[3; 4]]%R) = Ok pre3.
Proof. unfold svd_fit. cbn -[svd2]. rewrite svd2_a. cbn. unfold pre3. repeat f_equal. lra. Qed.
Lemma fit_c k e rr pre lhs pre' a : svd_fit svd2 (M [[3]; [4]]%R) (M [lhs]) = Ok pre' -> length lhs = 2 -> l2_core pre' [0]%R = Ok [[a]]%R -> sp_Z pre' = [lhs] ->
  MonoModel.fit X2 (gen k [{| mo_cls := CLin; mo_ent := e |}] rr (Some 0%R) pre) (M [[3; 4]]%R) (M [lhs]) None = (gen k [knw (OLin [[a]])] (Some 1) (Some 0%R) (Some pre'), Ok tt).
Proof. intros E HL Es EZ. destruct lhs as [|x [|y [|]]]; try discriminate. unfold MonoModel.fit. cbn -[svd2 lsq_fit lsq_solve]. cbn [lsq_fit x_lsvd X2]. unfold l2_fit. rewrite E. cbn -[lsq_solve]. unfold MonoModel.refit. cbn -[lsq_solve]. cbn [lsq_solve]. unfold l2_solve. cbn [l2_pre l2_reg]. rewrite EZ. cbn [nrows length repeat]. rewrite Es. reflexivity. Qed.
Lemma core_of pre a b : sp_svals pre = [5]%R -> sp_ZPhi pre = [[a]] -> sp_PsiT pre = [[1]]%R -> b = (a / 5)%R -> l2_core pre [0]%R = Ok [[b]].
Proof. intros E1 E2 E3 ->. unfold l2_core. cbn [mapM]. unfold l2_weights. rewrite E1, E2, E3. cbn [mapM bind]. destruct (Req_EM_T _ 0) as [E|_]; [lra|]. cbn. do 3 f_equal. field. Qed.
Lemma bayes_fit_c q e rr pre lhs d x : MonoModel.fit X2 (gen KContinuous [{| mo_cls := CLin; mo_ent := e |}] rr (Some 0%R) pre) (M [[3; 4]]%R) (M [lhs]) None = (d, Ok tt) -> length lhs = 2 -> initialize X2 MX1 d = x ->
  bayes_fit X2 MX1 (b0 q [{| mo_cls := CLin; mo_ent := e |}] rr pre) (Single [[3; 4]]%R (Some (M [lhs])) None) false None =
  match x with Ok p => ({| br_rom := {| rm_parts := noP; rm_ddt := None; rm_model := d |}; br_post := p |}, Ok tt) | Err er => ({| br_rom := {| rm_parts := noP; rm_ddt := None; rm_model := d |}; br_post := q |}, Err er) end.
Proof. intros E HL EI. destruct lhs as [|a [|b [|]]]; try discriminate. unfold bayes_fit, rom_fit, rom_fit_with. cbn -[initialize model_fit]. unfold model_fit. cbn [gen m_kind]. rewrite E. cbn -[initialize]. rewrite EI. reflexivity. Qed.
Lemma b0_first : bayes_fit X2 MX1 (b0 None [unk CLin] None None) (Single [[3; 4]]%R (Some (M [[4; 19 / 2]]%R)) None) false None = (b0 (Some (p50 0)) [knw (OLin [[2]]%R)] (Some 1) (Some pre2), Ok tt).
Proof. unfold unk. erewrite bayes_fit_c; [|apply (fit_c KContinuous _ _ _ _ pre2 2%R); [exact base2|reflexivity|apply (core_of _ 10%R); try reflexivity; lra|reflexivity]|reflexivity|].
  2:{ unfold initialize. rewrite post50. reflexivity. } reflexivity. Qed.
Lemma post3 k ops : posterior_of X2 MX1 (gen k ops (Some 1) (Some 0%R) (Some pre3)) = Err RuntimeError.
Proof. unfold posterior_of. cbn [gen m_solver lsq_posterior]. unfold l2_posterior, l2_solve. cbn [l2_pre l2_reg pre3 sp_Z nrows length repeat]. change (l2_core _ [0]%R) with (l2_core pre3 [0]%R). rewrite (core_of pre3 5%R 1%R) by (try reflexivity; lra).
  cbn -[check_sigmas]. unfold check_sigmas. cbn -[eps]. destruct (Rlt_dec _ eps) as [_|H]; [reflexivity|]. exfalso. apply H. unfold vnorm2, lsum. cbn -[eps]. match goal with |- (?x < _)%R => replace x with 0%R by lra end. unfold eps. apply Rinv_0_lt_compat. lra. Qed.
Lemma b0_second : bayes_fit X2 MX1 (b0 (Some (p50 0)) [knw (OLin [[2]]%R)] (Some 1) (Some pre2)) (Single [[3; 4]]%R (Some (M [[3; 4]]%R)) None) false None = (b0 (Some (p50 0)) [knw (OLin [[1]]%R)] (Some 1) (Some pre3), Err RuntimeError).
Proof. unfold knw. cbn [cls_of]. erewrite bayes_fit_c; [|apply (fit_c KContinuous _ _ _ _ pre3 1%R); [exact base3|reflexivity|apply (core_of _ 5%R); try reflexivity; lra|reflexivity]|reflexivity|].
  2:{ unfold initialize. rewrite post3. reflexivity. }
  reflexivity. Qed.
Theorem stale_posterior : exists (LX : lsx) (MX : mvn) b T1 T2 b1 b2 p1 e, lsx_ok LX /\ inverts MX /\ mk_brom (rm_model (br_rom b)) None None None None = Ok b /\
  bayes_fit LX MX b T1 false None = (b1, Ok tt) /\ br_post b1 = Some p1 /\ bayes_fit LX MX b1 T2 false None = (b2, Err e) /\ br_post b2 = Some p1 /\
  operator_matrix (rm_model (br_rom b2)) <> Ok (po_means p1) /\ forall p, posterior_of LX MX (rm_model (br_rom b2)) <> Ok p.
Proof. exists X2, MX1, (b0 None [unk CLin] None None), (Single [[3; 4]]%R (Some (M [[4; 19 / 2]]%R)) None), (Single [[3; 4]]%R (Some (M [[3; 4]]%R)) None). do 2 eexists. exists (p50 0), RuntimeError.
  split; [exact X2_ok|]. split; [exact MX1_inverts|]. split; [reflexivity|]. split; [exact b0_first|]. split; [reflexivity|]. split; [exact b0_second|]. split; [reflexivity|]. split.
  - cbn. intros [= H]. assert (50 / (25 + 0 * 0) = 2)%R by field. lra.
  - intros p. cbn [b0 br_rom rm_model]. rewrite post3. discriminate. Qed.

(* ---- a time-continuous search ---- *)
Definition pr_lin : cpredict := fun _ q t _ => match q with V [_] => Ok [map (fun s => F (if Rle_dec s 1 then 3 + s else 4)%R) t] | _ => Err DimensionalityError end.
Lemma pr_lin_solves : solves_well pr_lin.
Proof. intros d q t u s. unfold pr_lin. destruct q as [|x [|]]; try discriminate. intros [= <-]. split; [reflexivity|]. eexists. repeat constructor. Qed.
Definition c2 : sel_case model := {| sc_predict := fun d => pr_lin d (V [3]%R) [0; 1; 2; 4]%R None; sc_unstable := sel_unstable_continuous 4 E34 (Some (5 * (1 / 2))%R); sc_error := error_continuous [0; 1; 2; 4]%R E34 |}.
Lemma c2_is : ccase pr_lin 5 E34 None [0; 1; 2; 4]%R = Ok c2.
Proof. unfold ccase. rewrite lim34. reflexivity. Qed.
Definition s4 : sol := [[F (3 + 0); F (3 + 1); F 4; F 4]]%R.
Lemma c2_predicts d : sc_predict c2 d = Ok s4.
Proof. cbn. destruct (Rle_dec 0 1); [|lra]. destruct (Rle_dec 1 1); [|lra]. destruct (Rle_dec 2 1); [lra|]. destruct (Rle_dec 4 1); [lra|]. reflexivity. Qed.
Lemma c2_stable : sc_unstable c2 s4 = false.
Proof. cbn -[sel_unstable_continuous]. unfold sel_unstable_continuous. cbn. unfold vmean. cbn.
  assert (K : forall x, (1 <= x <= 4)%R -> (if Rlt_dec (5 * (1 / 2)) (Rabs (x - (3 + (4 + 0)) / (1 + 1))) then true else false) = false).
  { intros x Hx. destruct (Rlt_dec _ _) as [Hl|]; auto. unfold Rabs in Hl. destruct (Rcase_abs _); lra. } rewrite !K by lra. reflexivity. Qed.
Lemma c2_mean : exists e, (do m <- mean_draws 2 [s4; s4]; sc_error c2 m) = Ok (F e).
Proof. cbn -[sc_error]. change (sc_error c2) with (error_continuous [0; 1; 2; 4]%R E34). set (m := [[_; _]]).
  assert (HR : relative_error_in_time 1 2 [0; 1]%R E34 m (0 / sqrt (25 / 2))).
  { exists E34, 0%R, (sqrt (25 / 2))%R. split; [split; repeat constructor|]. split. { intros [|i] j Hi Hj; [|lia]. destruct j as [|[|j]]; [| |lia]; cbn; f_equal; field. }
    assert (HP := PostNorm.rpow_2). split; [|split; [|split; [|reflexivity]]].
    - split; [lra|]. rewrite trap2. rewrite HP by lra. cbn. repeat rewrite HP by apply Rabs_pos. replace (3 - 3)%R with 0%R by lra. replace (4 - 4)%R with 0%R by lra. rewrite Rabs_R0. lra.
    - split; [apply sqrt_pos|]. rewrite trap2. rewrite HP by apply sqrt_pos. rewrite sqrt_sqrt by lra. cbn. rewrite !HP by apply Rabs_pos. rewrite !Rabs_right by lra. lra.
    - intros H. apply sqrt_eq_0 in H; lra. }
  exists (0 / sqrt (25 / 2))%R. apply (error_c_spec 1 2 2 [0; 1; 2; 4]%R E34 m); [lia|lia|split; repeat constructor|reflexivity|repeat constructor|lia|cbn; lia|exact order01|]. exact HR. Qed.
Lemma try5c ops g0 q h : map mo_cls ops = [CLin] -> exists e, btraining_error nrm0 X2 MX1 fac 2 [] [(2, c2)] 1 (Build_bstate (gen KContinuous ops (Some 1) g0 (Some pre2)) q h) (SpecGrid.PS (F 5)) =
  (Build_bstate (gen KContinuous [knw (OLin [[1]]%R)] (Some 1) (Some 5%R) (Some pre2)) (Some (p50 5)) (2 + h), Ok (F e)).
Proof. intros Ho. destruct c2_mean as [e Ee]. exists ((0 + e) / INR 1)%R. unfold btraining_error. rewrite (update50 KContinuous ops g0 q h 5) by lra. cbn [bs_post test_all sum_draws case_draws].
  rewrite (draw5 KContinuous ops h Ho). cbn [bs_model]. rewrite c2_predicts, c2_stable. rewrite draw5 by reflexivity. cbn [bs_model]. rewrite c2_predicts, c2_stable. rewrite Ee. reflexivity. Qed.
Definition sel5c : brom := {| br_rom := {| rm_parts := noP; rm_ddt := None; rm_model := gen KContinuous [knw (OLin [[1]]%R)] (Some 1) (Some 5%R) (Some pre2) |}; br_post := Some (p50 5) |}.
Lemma bayes_search_c : bayes_continuous nrm0 X2 MX1 pr_lin bd nm (rB KContinuous) 0 (CNums [5]%R) [[0; 1]%R] (map M [E34]) (Some (map M [[[4; 19 / 2]]%R])) None false None fac true 2 5 2 [] = (sel5c, 2, Ok tt).
Proof. unfold bayes_continuous. replace (rm_cont (br_rom (rB KContinuous))) with true by reflexivity. cbn -[rom_fit_with bselect ccase extend_times limit_of]. destruct (Rlt_dec 2 0); [lra|]. cbn -[rom_fit_with bselect ccase extend_times limit_of].
  change (br_rom (rB KContinuous)) with (rL KContinuous). change [M E34] with (map M [E34]). change [M [[4%R; (19 / 2)%R]]] with (map M [[[4; 19 / 2]]%R]). rewrite rB_fit_c. cbn -[bselect ccase extend_times limit_of]. rewrite lim34. cbn -[bselect ccase extend_times]. rewrite times01. cbn -[bselect ccase]. rewrite c2_is. cbn -[bselect].
  unfold bselect, gridsearch. cbn [process sort map insert]. unfold bstate_of. cbn [br_rom rB2 rm_model br_post]. cbn [grid]. destruct (try5c [unk CLin] None None 0 eq_refl) as [e Ee]. rewrite Ee. cbn [flt nth].
  rewrite (update50 KContinuous _ (Some 5%R) (Some (p50 5)) 2 5) by lra. reflexivity. Qed.
