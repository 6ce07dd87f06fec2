(* VerifyLsEx.v -- verify() of a solver whose regularizer was refused. *)
From Coq Require Import String ZArith Lra Lia.
From Verif Require Import MonoEx ReqEx SpecLstsq SolverReg.
From Verif Require Export VerifyLsMore.
#[local] Open Scope string_scope.
#[local] Open Scope nat_scope.
#[local] Open Scope list_scope.

Definition ldblank : lsq := LL2D {| ld_reg := None; ld_pre := None |}.
Definition ldstale : list sev := [SFit (M [[1%R]]) (M [[2%R]]); SReg (GL2 (RVec [1%R; 1%R]))].
Lemma ldblank_made : made_solver ldblank /\ fresh_solver (x_lsvd Xs) ldblank.
Proof. split; [split; [reflexivity|intros v; discriminate]|]. split; [apply ldr_new|reflexivity]. Qed.
Definition ldpre : svdpre := {| sp_D := [[1%R]]; sp_Z := [[2%R]]; sp_svals := [1%R]; sp_ZPhi := matmul [[2%R]] [[1%R]]; sp_PsiT := [[1%R]] |}.
Lemma ldpre_fit : svd_fit (x_lsvd Xs) (M [[1%R]]) (M [[2%R]]) = Ok ldpre.
Proof. assert (E : x_lsvd Xs [[1%R]] = Ok ([[1%R]], [1%R], [[1%R]])) by (cbn [Xs x_lsvd]; destruct (mat_eq_dec _ _); [reflexivity|congruence]). unfold svd_fit, base_fit. cbn -[x_lsvd matmul]. rewrite E. reflexivity. Qed.
Lemma negs_11 : negs [1%R; 1%R] = false.
Proof. unfold negs. cbn. destruct (Rlt_dec 1 0); [lra|reflexivity]. Qed.
Lemma ldstale_run : srun Xs ldblank ldstale = LL2D {| ld_reg := Some [1%R; 1%R]; ld_pre := Some ldpre |} /\ snd (lsq_setreg (LL2D {| ld_reg := None; ld_pre := Some ldpre |}) (GL2 (RVec [1%R; 1%R]))) <> Ok tt.
Proof.
  split.
  - unfold ldblank, ldstale. cbn [srun sstep lsq_fit fst]. unfold ld_fit. rewrite ldpre_fit. cbn [wrap fst lsq_setreg ld_set ld_reg ld_pre]. rewrite negs_11. reflexivity.
  - cbn [lsq_setreg wrap snd ld_set]. rewrite negs_11. cbn. discriminate.
Qed.
(* a regularizer of the wrong length, refused by the setter but stored: solve() returns an array of the wrong shape, and verify() says so *)
Lemma stale_regularizer : exists X s l Oh, lsx_ok X /\ made_solver s /\ fresh_solver (x_lsvd X) s /\ Forall good_sev l /\ fits_returned X s l /\
  lsq_solve X (srun X s l) = Ok Oh /\
  forall I, exists f', same_files (fun _ => None) f' /\ solver_verify X I calm (srun X s l) (fun _ => None) = (f', Raised VerificationError).
Proof.
  destruct ldblank_made as [HM HF]. destruct ldstale_run as [HR _].
  assert (EO : exists a b, lsq_solve Xs (LL2D {| ld_reg := Some [1%R; 1%R]; ld_pre := Some ldpre |}) = Ok [[a]; [b]]).
  { cbn [lsq_solve ld_solve ld_pre ld_reg]. unfold l2_core, l2_weights. cbn. destruct (Req_EM_T _ 0) as [H|H]; [exfalso; lra|]. cbn. eexists _, _. reflexivity. }
  destruct EO as (a & b & EO). assert (FR : fits_returned Xs ldblank ldstale).
  { cbn [fits_returned ldstale]. split; [|split; [discriminate|exact Logic.I]]. intros D Z [= <- <-]. unfold ldblank. cbn [sstep lsq_fit]. unfold ld_fit. rewrite ldpre_fit. reflexivity. }
  exists Xs, ldblank, ldstale, [[a]; [b]]. rewrite HR. do 3 (split; [solve [auto using Xs_ok]|]). split.
  { constructor; [|constructor; [exact Logic.I|constructor]]. split; apply (good_mat 1 1); try lia; split; repeat constructor. }
  split; auto. split; auto. intros I.
  destruct (solver_verified Xs I ldblank ldstale (fun _ => None) [[1%R]] [[2%R]]) as [f' [H1 H2]]; auto.
  - rewrite HR. exact Logic.I.
  - now rewrite HR.
  - exists f'. split; auto. rewrite HR, EO in H2. exact H2.
Qed.
