(* RecoverReg.v -- more regularization: a larger misfit and a smaller operator matrix (C75). *)
From Coq Require Import ZArith Reals Lra Lia List.
From Verif Require Import LinAlg SpecRecover SpecLstsq SolverCond.
#[local] Open Scope R_scope.

Lemma ridge_size d lam O i : ridge d lam O i = lam * lam * row_size d O i. Proof. reflexivity. Qed.
Lemma path (f n : mat -> R) a b A B : 0 <= a -> a < b -> f A + a * n A <= f B + a * n B -> f B + b * n B <= f A + b * n A -> n B <= n A /\ f A <= f B.
Proof. intros Ha Hab H1 H2. assert (n B <= n A) by nra. split; auto. nra. Qed.

Theorem l2_path svd s1 s2 D Z a b A B :
  svd_spec svd -> l2_reach svd s1 -> l2_reach svd s2 -> odata (l2_pre s1) = Some (D, Z) -> odata (l2_pre s2) = Some (D, Z) ->
  l2_reg s1 = Some a -> l2_reg s2 = Some b -> (0 <= a < b)%R -> l2_solve s1 = Ok A -> l2_solve s2 = Ok B ->
  let k := nrows D in let d := ncols D in
  forall i, (i < nrows Z)%nat -> (row_size d B i <= row_size d A i)%R /\ (misfit k d D Z A i <= misfit k d D Z B i)%R.
Proof.
  intros HS R1 R2 D1 D2 G1 G2 Hab S1 S2 k d i Hi.
  destruct (l2_solves svd s1 D Z a A HS R1 D1 G1 S1) as ((MA & HA) & _). destruct (l2_solves svd s2 D Z b B HS R2 D2 G2 S2) as ((MB & HB) & _).
  specialize (HA B i MB Hi). specialize (HB A i MA Hi). cbv beta in HA, HB. rewrite !ridge_size in HA, HB. fold k d in HA, HB.
  apply (path (fun O => misfit k d D Z O i) (fun O => row_size d O i) (a * a) (b * b) A B); auto; nra.
Qed.

Theorem l2_bounded svd s D Z a A :
  svd_spec svd -> l2_reach svd s -> odata (l2_pre s) = Some (D, Z) -> l2_reg s = Some a -> l2_solve s = Ok A ->
  forall i, (i < nrows Z)%nat -> (misfit (nrows D) (ncols D) D Z A i + a * a * row_size (ncols D) A i <= bsum (nrows D) (fun t => Rsqr (mget Z i t)))%R.
Proof.
  intros HS R1 D1 G1 S1 i Hi. destruct (l2_solves svd s D Z a A HS R1 D1 G1 S1) as ((MA & HA) & _).
  specialize (HA (mzeros (nrows Z) (ncols D)) i ltac:(apply is_mat_mzeros) Hi). cbv beta in HA. rewrite !ridge_size in HA.
  assert (E1 : row_size (ncols D) (mzeros (nrows Z) (ncols D)) i = 0). { apply bsum_0. intros l Hl. rewrite mget_mzeros. unfold Rsqr. ring. }
  assert (E2 : misfit (nrows D) (ncols D) D Z (mzeros (nrows Z) (ncols D)) i = bsum (nrows D) (fun t => Rsqr (mget Z i t))).
  { apply bsum_ext. intros t Ht. rewrite bsum_0; [unfold Rsqr; ring|]. intros l Hl. rewrite mget_mzeros. ring. }
  rewrite E1, E2 in HA. lra.
Qed.

(* the size of row i in the sense of the regularizer G: |G o_i|^2 *)
Theorem tikhonov_path lst slv s1 s2 D Z G a b A B :
  lstsq_spec lst (tk_opts s1) -> lstsq_spec lst (tk_opts s2) -> solve_spec slv -> tk_reach s1 -> tk_reach s2 ->
  tk_data s1 = Some (D, Z) -> tk_data s2 = Some (D, Z) -> is_mat (ncols D) (ncols D) G ->
  tk_reg s1 = Some (mscale a G) -> tk_reg s2 = Some (mscale b G) -> (0 <= a < b)%R -> tk_solve lst slv s1 = Ok A -> tk_solve lst slv s2 = Ok B ->
  let k := nrows D in let d := ncols D in
  forall i, (i < nrows Z)%nat -> (tikpen d G B i <= tikpen d G A i)%R /\ (misfit k d D Z A i <= misfit k d D Z B i)%R.
Proof.
  intros HL1 HL2 HV R1 R2 D1 D2 HG G1 G2 Hab S1 S2 k d i Hi.
  assert (HM : forall c, is_mat (ncols D) (ncols D) (mscale c G)) by (intros; apply is_mat_mscale; auto).
  assert (HP : forall c O, tikpen d (mscale c G) O i = c * c * tikpen d G O i).
  { intros c O. unfold tikpen. rewrite <- bsum_scal_l. apply bsum_ext. intros t Ht.
    rewrite (bsum_ext d _ (fun l => c * (mget G t l * mget O i l))) by (intros l Hl; rewrite (mget_mscale d d) by auto; ring).
    rewrite bsum_scal_l. unfold Rsqr. ring. }
  destruct (tk_solves lst slv s1 D Z _ A HL1 HV R1 D1 G1 (HM a) S1) as ((MA & HA) & _). destruct (tk_solves lst slv s2 D Z _ B HL2 HV R2 D2 G2 (HM b) S2) as ((MB & HB) & _).
  specialize (HA B i MB Hi). specialize (HB A i MA Hi). cbv beta in HA, HB. fold k d in HA, HB. rewrite !HP in HA, HB.
  apply (path (fun O => misfit k d D Z O i) (fun O => tikpen d G O i) (a * a) (b * b) A B); auto; nra.
Qed.
