(* ParaEval.v -- parametric models: evaluate(), rhs(), jacobian(), predict(). *)
From Coq Require Import ZArith Permutation.
From Verif Require Import LinAlg MatAlg OpsProofs BlockAlg SolverReg SolverCond AffProofs InterpProofs.
From Verif Require Export ParaFinal MonoStmts.
From Verif Require Export SpecPara.
#[local] Open Scope nat_scope.

Lemma existsb_takes_iff l : existsb ptakes l = true <-> exists o, In o l /\ ptakes o = true. Proof. apply existsb_exists. Qed.
Lemma peval_sized r m d mu es : 0 < r -> Forall (psized r m) (pm_ops d) -> coeffs_ok (pm_ops d) mu -> snd (peval_ops (pm_ops d) mu) = Ok es ->
  Forall2 (fun o e => snd (pop_eval o mu) = Ok e /\ sized r m e /\ mo_cls e = pcls o) (pm_ops d) es.
Proof. intros Hr HS HC E. assert (HF := peval_ops_inv _ _ _ E). eapply F2_in; [|exact HF]. intros o e Ho Ee. split; auto. rewrite Forall_forall in HS. apply (eval_ok r m o mu); auto. intros a ->. apply HC; auto. Qed.
Lemma F2_right {A B} (P : A -> B -> Prop) (Q : B -> Prop) l l' : (forall a b, P a b -> Q b) -> Forall2 P l l' -> Forall Q l'.
Proof. intros H HF. induction HF; constructor; eauto. Qed.

(* evaluate() gives a trained non-parametric model of the same kind with operators of the same classes *)
Theorem evaluate_trained X d r m mu e : pext_ok X -> trained_p r m d -> coeffs_ok (pm_ops d) mu -> snd (pevaluate d mu) = Ok e ->
  trained (px_l X) e r /\ m_kind e = pm_kind d /\ map mo_cls (m_ops e) = map pcls (pm_ops d) /\
  (existsb ptakes (pm_ops d) = true -> m_m e = Some m) /\ m_hasin e = existsb ptakes (pm_ops d).
Proof. intros HX (Hne & Hr & Hm & HS) HC E. assert (E' := E). unfold pevaluate in E'. destruct (peval_ops (pm_ops d) mu) as [l x] eqn:EP. cbn in E'. destruct x as [es|]; [|discriminate].
  assert (EP' : snd (peval_ops (pm_ops d) mu) = Ok es) by (rewrite EP; auto). assert (HF := peval_sized r m d mu es Hr HS HC EP').
  assert (HSz : Forall (sized r m) es) by (eapply F2_right; [|exact HF]; intros ? ? (_ & K & _); exact K).
  destruct (pevaluate_sized r m d mu es Hr Hne EP' HSz) as (e' & E1 & E2 & E3 & E4 & E5 & E6). rewrite E in E1. injection E1 as <-.
  assert (HT : existsb takes_input es = existsb ptakes (pm_ops d)). { clear - HF. induction HF as [|o e l l' (_ & _ & H) HF IH]; auto. cbn. rewrite IH. f_equal. unfold takes_input, ptakes. congruence. }
  assert (Hcl : map mo_cls es = map pcls (pm_ops d)). { clear - HF. induction HF as [|o e l l' (_ & _ & H) HF IH]; auto. cbn. congruence. }
  split; [|split; [auto|split; [congruence|split; [|congruence]]]].
  - split; [apply HX|]. split; [|split; auto].
    + cbn in E'. apply (reach_new (px_l X) (pm_kind d) true (map AOp es) SNone); auto. 2:exact I.
      apply Forall_forall. intros a Ha. apply in_map_iff in Ha. destruct Ha as (o & <- & Ho). cbn. rewrite Forall_forall in HSz. destruct (HSz o Ho) as (e0 & Ee0 & Hc0 & Hw0). intros e1 Ee1. rewrite Ee0 in Ee1. injection Ee1 as <-. split; auto. exists r, m. auto.
    + unfold check_trained. rewrite E4, E5, andb_false_r, E2. assert (K : existsb uncal es = false). { clear - HSz. induction HSz as [|o l (e & Ee & _) HF IH]; auto. cbn. rewrite IH. unfold uncal. rewrite Ee. reflexivity. } rewrite K. reflexivity.
  - intros HTk. rewrite E5, HT, HTk. reflexivity. Qed.

Theorem prhs_is_the_sum r m d mu e q u : trained_p r m d -> coeffs_ok (pm_ops d) mu -> snd (pevaluate d mu) = Ok e -> is_vec r q -> pinput_for d m u ->
  exists ys y, Forall2 (fun o yo => acts r mu q (option_map V u) o yo /\ is_vec r yo) (pm_ops d) ys /\
  prhs d mu (V q) (option_map V u) = Ok (V y) /\ is_vec r y /\ forall i, i < r -> vget y i = lsum (map (fun yo => vget yo i) ys).
Proof. intros (Hne & Hr & Hm & HS) HC E Hq Hu. assert (E' := E). unfold pevaluate in E'. destruct (peval_ops (pm_ops d) mu) as [l x] eqn:EP. cbn in E'. destruct x as [es|]; [|discriminate].
  assert (EP' : snd (peval_ops (pm_ops d) mu) = Ok es) by (rewrite EP; auto). assert (HF := peval_sized r m d mu es Hr HS HC EP').
  assert (HSz : Forall (sized r m) es) by (eapply F2_right; [|exact HF]; intros ? ? (_ & K & _); exact K).
  destruct (pevaluate_sized r m d mu es Hr Hne EP' HSz) as (e' & E1 & E2 & E3 & _). rewrite E in E1. injection E1 as <-.
  assert (HV : exists v, is_vec m v /\ (existsb ptakes (pm_ops d) = true -> option_map V u = Some (V v))).
  { unfold pinput_for in Hu. destruct (existsb ptakes (pm_ops d)); [destruct (Hu eq_refl) as (v & -> & Hv); exists v; auto|]. exists (repeat 0%R m). split; [apply repeat_length|discriminate]. }
  destruct HV as (v & Hv & Hin).
  assert (HY : exists ys, Forall2 (fun o yo => acts r mu q (option_map V u) o yo /\ is_vec r yo) (pm_ops d) ys /\ Forall2 (fun o yo => op_apply o (V q) (option_map V u) = Ok (V yo)) es ys).
  { assert (HTo : forall o, In o (pm_ops d) -> ptakes o = true -> option_map V u = Some (V v)). { intros o Ho Ht. apply Hin. apply existsb_exists. eauto. }
    assert (HOk : forall o, In o (pm_ops d) -> eok o mu) by (intros o Ho a ->; apply HC; auto). clear - HF HS HTo HOk Hr Hm Hq Hv.
    revert HS HTo HOk. induction HF as [|o e l es (Ee & _) HF IH]; intros HS HTo HOk; [exists []; auto|]. apply Forall_cons_iff in HS. destruct HS as [HS1 HS2].
    destruct IH as (ys & A & B); auto. { intros; eapply HTo; eauto; right; auto. } { intros; apply HOk; right; auto. }
    destruct (eval_acts r m o mu e q v (option_map V u) Hr Hm HS1 (HOk o (or_introl eq_refl)) Ee Hq Hv (HTo o (or_introl eq_refl))) as (y & Ey & Hy & Ha). exists (y :: ys). auto. }
  destruct HY as (ys & HY1 & HY2).
  destruct (rhs_value r m e q v (option_map V u) Hr Hm) as (w & W1 & W2 & W3); auto. { rewrite E2; auto. }
  { rewrite E2. intros o Ho Ht. apply Hin. assert (HT : existsb takes_input es = existsb ptakes (pm_ops d)). { clear - HF. induction HF as [|o e l l' (_ & _ & H) HF IH]; auto. cbn. rewrite IH. f_equal. unfold takes_input, ptakes. congruence. }
    rewrite <- HT. apply existsb_exists. eauto. }
  exists ys, w. split; auto. split. { unfold prhs. rewrite E. exact W1. } split; auto. intros i Hi. rewrite W3 by auto. rewrite E2. f_equal.
  assert (HTo : forall o, In o es -> takes_input o = true -> option_map V u = Some (V v)).
  { intros o Ho Ht. apply Hin. assert (HT : existsb takes_input es = existsb ptakes (pm_ops d)). { clear - HF. induction HF as [|o0 e0 l0 l' (_ & _ & H) HF IH]; auto. cbn. rewrite IH. f_equal. unfold takes_input, ptakes. congruence. }
    rewrite <- HT. apply existsb_exists. eauto. }
  clear - HY2 HSz HTo Hr Hm Hq Hv Hi. revert HSz HTo. induction HY2 as [|o yo es ys Ho HF IH]; intros HSz HTo; auto. apply Forall_cons_iff in HSz. destruct HSz as [HS1 HS2]. cbn [map]. f_equal; [|apply IH; auto; intros; eapply HTo; eauto; right; auto].
  destruct (op_apply_vec r m o q v (option_map V u) Hr Hm HS1 Hq Hv (HTo o (or_introl eq_refl))) as (y & Ey & _ & Hval). rewrite Ho in Ey. injection Ey as <-. symmetry. apply Hval; auto. Qed.

Lemma pinput_e X d r m mu e u : pext_ok X -> trained_p r m d -> coeffs_ok (pm_ops d) mu -> snd (pevaluate d mu) = Ok e -> pinput_for d m u -> input_for e u.
Proof. intros HX HT HC E Hu. destruct (evaluate_trained X d r m mu e HX HT HC E) as (_ & _ & _ & A & B). intros Hh. rewrite B in Hh. destruct (Hu Hh) as (v & -> & Hv). exists m, v. auto. Qed.
Theorem pjacobian_is_the_derivative X d r m mu e q u junk J dir : pext_ok X -> trained_p r m d -> coeffs_ok (pm_ops d) mu -> snd (pevaluate d mu) = Ok e -> is_vec r q -> pinput_for d m u ->
  (forall k, length (junk k) = k) -> pjacobian junk d mu q u = Ok J -> is_vec r dir -> is_mat r r J /\ exists f : R -> vec,
    (forall t, prhs d mu (V (along q dir t)) (option_map V u) = Ok (V (f t))) /\
    forall i, i < r -> derivable_pt_lim (fun t => vget (f t) i) 0 (vget (matvec J dir) i).
Proof. intros HX HT HC E Hq Hu Hj EJ Hd. destruct (evaluate_trained X d r m mu e HX HT HC E) as (A & _). assert (Hi := pinput_e X d r m mu e u HX HT HC E Hu). unfold pjacobian in EJ. rewrite E in EJ. cbn [bind] in EJ.
  split. { destruct (C29_jac_sum _ _ _ _ _ _ _ A Hq Hi EJ) as [B _]. exact B. } destruct (C29_jac_derivative _ _ _ _ _ _ _ _ A Hq Hi Hj EJ Hd) as (f & F1 & F2). exists f. split; auto. intros t. unfold prhs. rewrite E. cbn [bind]. auto. Qed.
Theorem ppredict_recurrence X d r m mu e q0 n inputs : pext_ok X -> trained_p r m d -> coeffs_ok (pm_ops d) mu -> snd (pevaluate d mu) = Ok e -> is_vec r q0 -> 1 <= n ->
  (existsb ptakes (pm_ops d) = true -> exists u k, inputs = Some (UArr u) /\ is_mat m k (atleast_2d u) /\ n - 1 <= k) -> exists Q,
  ppredict d mu (V q0) (Z.of_nat n) inputs = Ok Q /\ is_mat r n Q /\ colv r Q 0 = q0 /\
  forall j, j + 1 < n -> prhs d mu (V (colv r Q j)) (pstep_input d inputs j) = Ok (V (colv r Q (j + 1))).
Proof. intros HX HT HC E Hq Hn Hin. destruct (evaluate_trained X d r m mu e HX HT HC E) as (A & _ & _ & A2 & A3).
  assert (Hi : enough_inputs e inputs n). { intros Hh. rewrite A3 in Hh. destruct (Hin Hh) as (u & k & -> & Hu & Hk). exists u, m, k. auto. }
  destruct (C30_rec _ _ _ _ _ _ A Hq Hi Hn) as (Q & Q1 & Q2 & Q3 & Q4). exists Q. unfold ppredict, prhs. rewrite E. cbn [bind]. split; auto. split; auto. split; auto.
  intros j Hj. rewrite <- Q4 by auto. unfold step_input, pstep_input. rewrite A3. reflexivity. Qed.

(* a model whose operators are all non-parametric or affine can be evaluated at every parameter of the right dimension *)
Theorem affine_evaluates d r m mu : trained_p r m d -> coeffs_ok (pm_ops d) mu -> (forall o, In o (pm_ops d) -> match o with PMono _ => True | PAff a => match a_pdim a with Some p => plen mu = p | None => True end | PItp _ => False end) ->
  exists e, snd (pevaluate d mu) = Ok e.
Proof. intros (Hne & Hr & Hm & HS) HC HA. rewrite Forall_forall in HS. destruct (peval_ops_ok mu (pm_ops d)) as (es & EE & HF).
  { intros o Ho. specialize (HA o Ho). destruct o as [o|a|t]; [cbn; eauto| |tauto]. apply (eval_total_aff r m); auto. intros a0 [= <-]. apply HC; auto. }
  assert (HF2 := peval_sized r m d mu es Hr ltac:(apply Forall_forall; exact HS) HC EE). destruct (pevaluate_sized r m d mu es Hr Hne EE) as (e & E & _); eauto. eapply F2_right; [|exact HF2]. intros ? ? (_ & K & _); exact K. Qed.
(* after fit() every operator has entries of the right size *)
Theorem pfit_trained X d mus states lhs inputs d' : pext_ok X -> preach X d -> fit_args d mus states lhs inputs -> NoDup mus -> pm_intrusive d = false ->
  pfit X d mus states lhs inputs = (d', Ok tt) -> exists r m, trained_p r m d' /\ pm_r d' = Some r /\ (existsb ptakes (pm_ops d') = true -> pm_m d' = Some m).
Proof. intros HX HR HA HN Hi E. assert (H := preach_inv X d HX HR). destruct (pfit_ok_fitted X d mus states lhs inputs d' HX H HA HN Hi E) as (d1 & r & m & p & ks & Us & F1 & HP & HF & ER).
  destruct (prefit_inv X d1 d' _ _ _ _ _ _ _ _ _ _ HX HF ER) as (H' & _ & _ & K). destruct (K eq_refl) as (_ & HS & _). exists r, m. assert (HI := pf_inv _ _ _ _ _ _ _ _ _ _ _ H').
  split; [|split; [apply (pf_r _ _ _ _ _ _ _ _ _ _ _ H')|]].
  - destruct (pf_dims _ _ _ _ _ _ _ _ _ _ _ H') as (Hr & Hm & _). split; [apply (pi_ne X d' HI)|]. split; auto. split; auto. apply Forall_forall; auto.
  - intros Ht. rewrite <- (pi_hasin X d' HI) in Ht. apply (pf_in _ _ _ _ _ _ _ _ _ _ _ H' Ht). Qed.
