(* ReqEx.v -- C54: the decoupled L2 solver answers after a fit that raised. *)
From Coq Require Import ZArith Lra Lia.
From Verif Require Import MonoEx.
From Verif Require Export ReqCalls.
#[local] Open Scope nat_scope.

(* a scipy that knows the singular value decomposition of [[1]] *)
Definition Xs : lsx := {| x_lstsq := lst0; x_lsvd := fun A => if mat_eq_dec A [[1%R]] then Ok ([[1%R]], [1%R], [[1%R]]) else Err LinAlgError; x_lsolve := fun _ _ => Err LinAlgError |}.
Lemma Xs_ok : lsx_ok Xs.
Proof. split; [exact (proj1 X0_ok)|]. split; [|exact (proj2 (proj2 X0_ok))].
  intros k d A Phi s PsiT Hk Hd HA E. cbn in E. destruct (mat_eq_dec A _) as [->|]; [|discriminate]. injection E as <- <- <-.
  assert (k = 1) by (symmetry; exact (is_mat_len _ _ _ HA)). subst k. assert (d = 1) by (symmetry; exact (ncols_is_mat _ _ _ HA Hk)). subst d.
  cbn zeta. cbn [Nat.min]. split; [repeat constructor|]. split; [reflexivity|]. split; [repeat constructor|].
  split; [intros [|i] [|j] Hi Hj; try lia; unfold mget; cbn; lra|]. split; [intros [|i] [|j] Hi Hj; try lia; unfold mget; cbn; lra|].
  split; [intros [|i] Hi; try lia; unfold vget; cbn; lra|]. split; [intros [|i] [|j] Hi Hj; try lia; unfold vget; cbn; lra|].
  intros [|i] [|j] Hi Hj; try lia; unfold mget, vget; cbn; lra. Qed.
Definition ldnew : lsq := LL2D {| ld_reg := Some [1%R]; ld_pre := None |}.
Definition ldcalls : list sev := [SFit (M [[1%R]]) (M [[1%R]; [2%R]])].
Lemma ld_fit_raises : snd (lsq_fit Xs ldnew (M [[1%R]]) (M [[1%R]; [2%R]])) = Err DimensionalityError /\ exists O, lsq_solve Xs (srun Xs ldnew ldcalls) = Ok O.
Proof. assert (E : x_lsvd Xs [[1%R]] = Ok ([[1%R]], [1%R], [[1%R]])) by (cbn [Xs x_lsvd]; destruct (mat_eq_dec _ _); [reflexivity|congruence]).
  assert (ES : svd_fit (x_lsvd Xs) (M [[1%R]]) (M [[1%R]; [2%R]]) = Ok {| sp_D := [[1%R]]; sp_Z := [[1%R]; [2%R]]; sp_svals := [1%R]; sp_ZPhi := matmul [[1%R]; [2%R]] [[1%R]]; sp_PsiT := [[1%R]] |}).
  { unfold svd_fit. cbn [base_fit bind fst]. unfold base_fit. cbn [bind fst snd]. cbn -[x_lsvd matmul]. rewrite E. reflexivity. }
  unfold ldnew, ldcalls. cbn [srun sstep lsq_fit fst]. unfold ld_fit. rewrite ES. split; [reflexivity|]. cbn [wrap fst lsq_solve ld_solve ld_pre ld_reg]. unfold l2_core, l2_weights. cbn.
  destruct (Req_EM_T _ 0) as [H|H]; [exfalso; lra|]. cbn. eexists. reflexivity. Qed.
Lemma l2d_after_raise : exists X s l O, lsx_ok X /\ new_solver s /\ fit_called l /\ ~ fit_returned X s l /\ lsq_solve X (srun X s l) = Ok O.
Proof. destruct ld_fit_raises as [H1 [O H2]]. exists Xs, ldnew, ldcalls, O. split; [exact Xs_ok|]. split; [reflexivity|]. split; [eexists _, _; left; reflexivity|]. split; auto.
  cbn [ldcalls fit_returned]. intros [(D & Z & H3 & H4)|[]]. injection H3 as <- <-. rewrite H1 in H4. discriminate. Qed.
