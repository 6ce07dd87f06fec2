(* RecoverGen.v -- exact data give exact operators: models made of operators of any class, parametric or not (C75). *)
From Coq Require Import ZArith Lra Lia List.
From Verif Require Import LinAlg MatAlg OpsProofs GenProofs GenMain PGenProofs PGenMain.
From Verif Require Import SpecRecover.
From Verif Require Import SpecGen.
#[local] Open Scope nat_scope.

Lemma penalty_nonneg s w pen O i : penalty s w = Some pen -> (0 <= pen O i)%R.
Proof.
  assert (HR : forall d lam O i, (0 <= ridge d lam O i)%R).
  { intros. unfold ridge. apply Rmult_le_pos; [apply Rle_0_sqr|]. apply bsum_nonneg. intros. apply Rle_0_sqr. }
  assert (HT : forall d G O i, (0 <= tikpen d G O i)%R). { intros. unfold tikpen. apply bsum_nonneg. intros. apply Rle_0_sqr. }
  destruct s as [p|p|p|p|p|p|p]; cbn [penalty]; intros H; try discriminate.
  - injection H as <-. lra.
  - destruct (l2_reg p); [|discriminate]. injection H as <-. apply HR.
  - destruct (ld_reg p); [|discriminate]. injection H as <-. apply HR.
  - destruct (tk_reg p); [|discriminate]. injection H as <-. apply HT.
  - destruct (td_reg p); [|discriminate]. injection H as <-. apply HT.
Qed.
Lemma misfit_of_nonneg r m k fs Es Q Z U i : (0 <= misfit_of r m k fs Es Q Z U i)%R.
Proof. unfold misfit_of. apply bsum_nonneg. intros. apply Rle_0_sqr. Qed.
Lemma misfit_of_0 r m k fs Es Q Z U i : misfit_of r m k fs Es Q Z U i = 0%R -> forall j, j < k -> value fs Es (colv r Q j) (colv m U j) i = mget Z i j.
Proof.
  intros H j Hj. unfold misfit_of in H. pose proof (bsum_nonneg_0 k _ ltac:(intros; apply Rle_0_sqr) H j Hj) as H1. cbv beta in H1. apply Rsqr_0_uniq in H1. lra.
Qed.
Lemma misfit_of_exact r m k fs Es Q Z U i : explains r m k fs Es Q Z U -> i < r -> misfit_of r m k fs Es Q Z U i = 0%R.
Proof. intros H Hi. unfold misfit_of. apply bsum_0. intros j Hj. rewrite (H i j Hi Hj). unfold Rsqr. ring. Qed.

Theorem recovers X r m k args fs states lhs inputs Q Z U d' Es0 s pen :
  lsx_ok X -> 0 < r -> 0 < m -> Forall2 (described r m) args fs -> some_unknown args ->
  data r m k args states lhs inputs Q Z U -> gsession X r m args states lhs inputs d' ->
  valued r args fs Es0 -> explains r m k fs Es0 Q Z U -> gm_solver d' = Some s -> penalty s (unknowns args fs) = Some pen ->
  exists Es, valued r args fs Es /\ map go_ent (gm_ops d') = map Some Es /\
    (forall i, i < r -> (misfit_of r m k fs Es Q Z U i <= pen (hstack (learned args Es0)) i)%R) /\
    ((forall i, i < r -> pen (hstack (learned args Es0)) i = 0%R) ->
       (forall j ou, j < k -> (any_inputs args -> ou = Some (V (colv m U j))) -> grhs d' (V (colv r Q j)) ou = Ok (V (colv r Z j))) /\
       (determined r m k args fs Es0 Q U -> Es = Es0 /\
          forall q u ou, is_vec r q -> is_vec m u -> (any_inputs args -> ou = Some (V u)) ->
            exists y, grhs d' (V q) ou = Ok (V y) /\ is_vec r y /\ forall i, i < r -> vget y i = value fs Es0 q u i)).
Proof.
  intros HX Hr Hm HD HU HData HS HV0 HEx Es Hpen.
  destruct (session_learns X r m k args fs states lhs inputs Q Z U d' HX Hr Hm HD HU HData HS) as (E & HV & HE & _ & _ & HRhs & s1 & Es1 & HBest).
  assert (s1 = s) by congruence. subst s1. specialize (HBest pen Hpen Es0).
  assert (HB : forall i, i < r -> (misfit_of r m k fs E Q Z U i <= pen (hstack (learned args Es0)) i)%R).
  { intros i Hi. specialize (HBest i HV0 Hi). rewrite (misfit_of_exact r m k fs Es0 Q Z U i HEx Hi) in HBest.
    pose proof (penalty_nonneg s _ pen (hstack (learned args E)) i Hpen). lra. }
  exists E. split; auto. split; auto. split; auto. intros HP.
  assert (HX0 : explains r m k fs E Q Z U).
  { intros i j Hi Hj. apply (misfit_of_0 r m k fs E Q Z U i); auto. specialize (HB i Hi). rewrite HP in HB by auto. pose proof (misfit_of_nonneg r m k fs E Q Z U i). lra. }
  split.
  - intros j ou Hj Hou. destruct (HRhs (colv r Q j) (colv m U j) ou ltac:(apply is_vec_colv) ltac:(apply is_vec_colv) Hou) as (y & Ey & Hy & Hv). rewrite Ey. do 2 f_equal.
    apply (vec_ext r); auto; try apply is_vec_colv. intros i Hi. rewrite Hv by auto. rewrite vget_colv by auto. apply HX0; auto.
  - intros HDet. assert (E = Es0). { apply HDet; auto. intros i j Hi Hj. rewrite (HX0 i j Hi Hj), (HEx i j Hi Hj). reflexivity. }
    subst E. split; auto.
Qed.

Lemma ymisfit_nonneg r m mus ks xs Es Qs Zs Us row : (0 <= ymisfit r m mus ks xs Es Qs Zs Us row)%R.
Proof. unfold ymisfit. apply bsum_nonneg. intros. apply bsum_nonneg. intros. apply Rle_0_sqr. Qed.
Lemma ymisfit_0 r m mus ks xs Es Qs Zs Us row : ymisfit r m mus ks xs Es Qs Zs Us row = 0%R -> forall i j, i < length mus -> j < nth i ks 0 ->
  yvalue mus i xs Es (colv r (traj Qs i) j) (colv m (traj Us i) j) row = mget (traj Zs i) row j.
Proof.
  intros H i j Hi Hj. unfold ymisfit in H. pose proof (bsum_nonneg_0 _ _ ltac:(intros; apply bsum_nonneg; intros; apply Rle_0_sqr) H i Hi) as H1. cbv beta in H1.
  pose proof (bsum_nonneg_0 _ _ ltac:(intros; apply Rle_0_sqr) H1 j Hj) as H2. cbv beta in H2. apply Rsqr_0_uniq in H2. lra.
Qed.
Lemma ymisfit_exact r m mus ks xs Es Qs Zs Us row : yexplains r m mus ks xs Es Qs Zs Us -> row < r -> ymisfit r m mus ks xs Es Qs Zs Us row = 0%R.
Proof. intros H Hr. unfold ymisfit. apply bsum_0. intros i Hi. apply bsum_0. intros j Hj. rewrite (H i j row Hi Hj Hr). unfold Rsqr. ring. Qed.

Theorem yrecovers X r m args xs mus states lhs inputs ks Qs Zs Us d' Es0 s pen :
  lsx_ok X -> 0 < r -> Forall2 (ydescribed r m) args xs -> y_some_unknown args ->
  ydata r m args mus states lhs inputs ks Qs Zs Us -> ysession X r m args mus states lhs inputs d' ->
  yshapes r mus xs Es0 -> yexplains r m mus ks xs Es0 Qs Zs Us -> ym_solver d' = Some s -> penalty s (yunknowns mus xs) = Some pen ->
  exists Es, yshapes r mus xs Es /\ map yo_ent (filter (fun o => negb (yo_known o)) (ym_ops d')) = map Some Es /\
    (forall row, row < r -> (ymisfit r m mus ks xs Es Qs Zs Us row <= pen (hstack Es0) row)%R) /\
    ((forall row, row < r -> pen (hstack Es0) row = 0%R) ->
       (forall i j ou, i < length mus -> j < nth i ks 0 -> Forall2 (y_defined mus (param mus i)) args xs -> (y_any_inputs args -> ou = Some (V (colv m (traj Us i) j))) ->
          yrhs d' (param mus i) (V (colv r (traj Qs i) j)) ou = Ok (V (colv r (traj Zs i) j))) /\
       (ydetermined r m mus ks xs Es0 Qs Us -> Es = Es0 /\
          forall mu q u ou, Forall2 (y_defined mus mu) args xs -> is_vec r q -> is_vec m u -> (y_any_inputs args -> ou = Some (V u)) ->
            exists y, yrhs d' mu (V q) ou = Ok (V y) /\ is_vec r y /\ forall i, i < r -> vget y i = yvalue_at mus mu xs Es0 q u i)).
Proof.
  intros HX Hr HD HU HData HS HV0 HEx Es Hpen.
  destruct (ysession_learns X r m args xs mus states lhs inputs ks Qs Zs Us d' HX Hr HD HU HData HS) as (E & HV & _ & _ & HE & HRhs & s1 & Es1 & HBest).
  assert (s1 = s) by congruence. subst s1. specialize (HBest pen Hpen Es0).
  assert (HB : forall row, row < r -> (ymisfit r m mus ks xs E Qs Zs Us row <= pen (hstack Es0) row)%R).
  { intros i Hi. specialize (HBest i HV0 Hi). rewrite (ymisfit_exact r m mus ks xs Es0 Qs Zs Us i HEx Hi) in HBest.
    pose proof (penalty_nonneg s _ pen (hstack E) i Hpen). lra. }
  exists E. split; auto. split; auto. split; auto. intros HP.
  assert (HX0 : yexplains r m mus ks xs E Qs Zs Us).
  { intros i j row Hi Hj Hrow. apply (ymisfit_0 r m mus ks xs E Qs Zs Us row); auto. specialize (HB row Hrow). rewrite HP in HB by auto.
    pose proof (ymisfit_nonneg r m mus ks xs E Qs Zs Us row). lra. }
  split.
  - intros i j ou Hi Hj HDf Hou.
    destruct (HRhs (param mus i) (colv r (traj Qs i) j) (colv m (traj Us i) j) ou HDf ltac:(apply is_vec_colv) ltac:(apply is_vec_colv) Hou) as (y & Ey & Hy & Hv). rewrite Ey. do 2 f_equal.
    apply (vec_ext r); auto; try apply is_vec_colv. intros row Hrow. rewrite Hv by auto. rewrite vget_colv by auto.
    rewrite <- (HX0 i j row Hi Hj Hrow). eapply value_at_training; eauto; apply is_vec_colv.
  - intros HDet. assert (E = Es0). { apply HDet; auto. intros i j row Hi Hj Hrow. rewrite (HX0 i j row Hi Hj Hrow), (HEx i j row Hi Hj Hrow). reflexivity. }
    subst E. split; auto.
Qed.
