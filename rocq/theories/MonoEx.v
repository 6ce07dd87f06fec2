(* MonoEx.v -- concrete models, and the claims that fail. *)
From Coq Require Import ZArith String.
From Verif Require Export MonoFinal.
#[local] Open Scope nat_scope.

Definition unk (c : cls) : mop := {| mo_cls := c; mo_ent := None |}.
Definition knw (e : op) : mop := {| mo_cls := cls_of e; mo_ent := Some e |}.
(* a model with one linear operator to learn *)
Definition dA : model := {| m_kind := KContinuous; m_frozen := false; m_ops := [unk CLin]; m_infer := [0]; m_known := []; m_hasin := false; m_r := None; m_m := Some 0;
  m_intrusive := false; m_solver := Some new_plain |}.
Lemma dA_made : mk_model KContinuous false [AStr "A"%string] SNone = Ok dA. Proof. reflexivity. Qed.
Lemma dA_reach : reach X0 dA. Proof. apply (reach_new X0 KContinuous false [AStr "A"%string] SNone); [repeat constructor|exact I|exact dA_made]. Qed.
Definition plain_of (D Z : mat) : lsq := LPlain {| pl_opts := no_opts; pl_data := Some (D, Z) |}.
Definition s12 : lsq := plain_of [[1]]%R [[2]]%R.
Lemma solve12 : lsq_solve X0 s12 = Ok [[2%R]].
Proof. cbn. unfold plain_solve. cbn [pl_data pl_opts]. change (mT [[2%R]]) with [[2%R]]. rewrite lst0_ok. reflexivity. Qed.
(* ... fitted to one snapshot *)
Definition dA1 : model := {| m_kind := KContinuous; m_frozen := false; m_ops := [knw (OLin [[2]]%R)]; m_infer := [0]; m_known := []; m_hasin := false; m_r := Some 1; m_m := Some 0;
  m_intrusive := false; m_solver := Some s12 |}.
Lemma dA1_fit : fit X0 dA (V [1]%R) (V [2]%R) None = (dA1, Ok tt).
Proof. unfold fit. change (m_frozen dA) with false. change (m_intrusive dA) with false. cbv iota.
  assert (E : fit_solver X0 dA (V [1]%R) (V [2]%R) None = (with_solver (Some s12) (with_m (Some 0) (with_r (Some 1) dA)), Ok tt)) by reflexivity. rewrite E. cbn [seqm].
  unfold refit. cbn [with_solver m_intrusive with_m with_r dA m_solver]. rewrite solve12. reflexivity. Qed.
Lemma dA1_reach : reach X0 dA1.
Proof. apply (reach_step X0 dA (EFit (V [1]%R) (V [2]%R) None) dA1 (Ok tt)); [apply dA_reach|cbn; repeat split; auto; lia|exact dA1_fit|exact I]. Qed.

(* a known linear operator, a constant to learn *)
Definition dK : model := {| m_kind := KDiscrete; m_frozen := false; m_ops := [knw (OLin [[3]]%R); unk CConst]; m_infer := [1]; m_known := [0]; m_hasin := false; m_r := Some 1; m_m := Some 0;
  m_intrusive := false; m_solver := Some new_plain |}.
Lemma dK_made : mk_model KDiscrete false [AOp (knw (OLin [[3]]%R)); AStr "c"%string] SNone = Ok dK. Proof. reflexivity. Qed.
Lemma knw_valid r m e : 0 < r -> 0 < m -> wf_op r m e -> valid_op (knw e).
Proof. intros Hr Hm Hw e' [= <-]. split; auto. exists r, m. auto. Qed.
Lemma dK_reach : reach X0 dK.
Proof. apply (reach_new X0 KDiscrete false [AOp (knw (OLin [[3]]%R)); AStr "c"%string] SNone); [|exact I|exact dK_made]. constructor; [|repeat constructor].
  apply (knw_valid 1 1); auto; cbn. split; repeat constructor. Qed.
Definition dK1 : model := {| m_kind := KDiscrete; m_frozen := false; m_ops := [knw (OLin [[3]]%R); knw (OConst [2]%R)]; m_infer := [1]; m_known := [0]; m_hasin := false; m_r := Some 1; m_m := Some 0;
  m_intrusive := false; m_solver := Some s12 |}.
Lemma dK1_fit : fit X0 dK (V [1]%R) (V [5]%R) None = (dK1, Ok tt).
Proof. unfold fit. change (m_frozen dK) with false. change (m_intrusive dK) with false. cbv iota.
  assert (E : fit_solver X0 dK (V [1]%R) (V [5]%R) None = (with_solver (Some (plain_of [[1]]%R [[5 - 3 * 1]]%R)) dK, Ok tt)) by reflexivity.
  rewrite E. cbn [seqm]. replace (5 - 3 * 1)%R with 2%R by ring. fold s12.
  unfold refit. cbn [with_solver m_intrusive dK m_solver]. rewrite solve12. reflexivity. Qed.
Lemma dK1_reach : reach X0 dK1.
Proof. apply (reach_step X0 dK (EFit (V [1]%R) (V [5]%R) None) dK1 (Ok tt)); [apply dK_reach|cbn; repeat split; auto; lia|exact dK1_fit|exact I]. Qed.
Lemma dK1_trained : check_trained dK1 = Ok tt. Proof. reflexivity. Qed.

(* ---- what fails ---- *)
(* operators = ["B", 3] on a model without inputs raises, but the model now says it takes inputs *)
Lemma failed_assignment : exists X d args d' e, lsx_ok X /\ reach X d /\ Forall valid_arg args /\ set_operators args d = (d', Err e) /\ ~ consistent d'.
Proof. exists X0, dA, [AStr "B"%string; AOther]. eexists _, _. split; [exact X0_ok|]. split; [exact dA_reach|]. split; [repeat constructor|]. split; [reflexivity|].
  intros (_ & _ & HC & _). cbn in HC. destruct HC as [HC _]. destruct (HC eq_refl) as (o & [<-|[]] & Ht). discriminate. Qed.
(* fit() with bad data raises; refit() then uses the data of the last successful fit *)
Lemma refit_after_error : exists X d states lhs d1 e d2, lsx_ok X /\ reach X d /\ good_arr states /\ good_arr lhs /\
  fit X d states lhs None = (d1, Err e) /\ refit X d1 = (d2, Ok tt) /\ ~ consistent d2.
Proof. exists X0, dA1, (M [[1]; [1]]%R), (V [2]%R). eexists _, _, _. split; [exact X0_ok|]. split; [exact dA1_reach|]. split; [exists 2, 1; repeat split; auto; repeat constructor|]. split; [cbn; lia|].
  split; [reflexivity|]. split.
  - unfold refit. cbn [m_intrusive m_solver with_m with_r with_ops dA1]. rewrite solve12. reflexivity.
  - intros (_ & HC & _). destruct (HC (knw (OLin [[2]]%R)) (OLin [[2]]%R)) as (_ & r & m & _ & _ & Hw & Er & _); [left; reflexivity|reflexivity|].
    cbn in Er. injection Er as <-. destruct Hw as [Hw _]. discriminate. Qed.
(* a model whose operators all had entries has no solver: given operators to learn, it cannot be fitted *)
Definition dI : model := {| m_kind := KDiscrete; m_frozen := false; m_ops := [knw (OLin [[3]]%R)]; m_infer := []; m_known := [0]; m_hasin := false; m_r := Some 1; m_m := Some 0;
  m_intrusive := true; m_solver := None |}.
Definition dI1 : model := {| m_kind := KDiscrete; m_frozen := false; m_ops := [unk CLin]; m_infer := [0]; m_known := []; m_hasin := false; m_r := None; m_m := Some 0;
  m_intrusive := false; m_solver := None |}.
Lemma dI_reach : reach X0 dI.
Proof. apply (reach_new X0 KDiscrete false [AOp (knw (OLin [[3]]%R))] (SObj new_plain)); [|cbn; auto|reflexivity]. constructor; [|constructor]. apply (knw_valid 1 1); auto; cbn. split; repeat constructor. Qed.
Lemma no_solver : exists X d args d', lsx_ok X /\ reach X d /\ Forall valid_arg args /\ set_operators args d = (d', Ok tt) /\ m_infer d' <> [] /\
  forall states lhs, exists d'' e, fit X d' states lhs None = (d'', Err e).
Proof. exists X0, dI, [AStr "A"%string], dI1. split; [exact X0_ok|]. split; [exact dI_reach|].
  split; [repeat constructor|]. split; [reflexivity|]. split; [discriminate|]. intros states lhs. unfold fit. cbn [m_frozen m_intrusive dI1]. unfold fit_solver.
  destruct (process_fit dI1 states lhs None) as [d1 x] eqn:EP.
  assert (HI : minv X0 dI1). { eapply reach_minv; [exact X0_ok|]. apply (reach_step X0 dI (ESetOps [AStr "A"%string]) dI1 (Ok tt)); [apply dI_reach|repeat constructor|reflexivity|reflexivity]. }
  destruct (process_fit_inv _ _ _ _ _ _ (mi_s _ _ HI) eq_refl EP) as ((_ & (_ & _ & _ & _ & _ & _ & Es & _) & _) & _). cbn in Es.
  destruct x as [[[Q L] U]|e]; cbn [seqm]; [|eauto]. destruct (assemble d1 Q U); [|cbn; eauto]. rewrite Es. cbn. eauto. Qed.
(* copy() of a fitted model cannot be fitted again *)
Lemma copy_forgets : exists X d d', lsx_ok X /\ reach X d /\ m_infer d <> [] /\ copy_model d = Ok d' /\ model_eqb d d' = true /\
  (forall s l u, fit X d' s l u = (d', Ok tt)) /\ (exists O, operator_matrix d = Ok O) /\ operator_matrix d' = Err ValueError.
Proof. assert (HM := reach_minv X0 dA1 X0_ok dA1_reach). destruct (copy_does_not_learn X0 dA1 HM eq_refl eq_refl) as (d' & E & HF & _ & HO).
  destruct (copy_trained X0 dA1 HM eq_refl) as (d2 & E2 & HE & _). rewrite E in E2. injection E2 as <-.
  exists X0, dA1, d'. split; [exact X0_ok|]. split; [exact dA1_reach|]. split; [discriminate|]. split; auto. split; [rewrite model_eq_sym; auto|]. split; auto. split; [|auto]. eexists. reflexivity. Qed.
(* copy() of a model whose state_dimension was set by hand is another model *)
Lemma copy_loses_dimension : exists X d d', lsx_ok X /\ reach X d /\ copy_model d = Ok d' /\ model_eqb d d' = false.
Proof. exists X0, (with_r (Some 3) dA). eexists. split; [exact X0_ok|]. split; [|split; [reflexivity|reflexivity]].
  apply (reach_step X0 dA (ESetR 3) _ (Ok tt)); [apply dA_reach|exact I|reflexivity|exact I]. Qed.
