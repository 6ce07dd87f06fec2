(* Prop_VerifySolvers.v -- property C68 (copy() and verify() of least-squares solvers). *)
From Coq Require Import String ZArith Reals Lra Lia List.
From Verif Require Import MonoFinal MonoEx SolverReg SpecLstsq VerifyLsProofs VerifyLsMore VerifyLsEx.
From Verif Require Import SpecVerifyLs.
#[local] Open Scope string_scope.
#[local] Open Scope nat_scope.
#[local] Open Scope list_scope.

(* C68: copy() of a solver of the library is the same solver, whatever fits and regularizers it has seen, if the fits returned. *)
Theorem C68_copy_identical :
  forall X s l,
  made_solver s -> fits_returned X s l -> lsq_copy (srun X s l) = Ok (srun X s l).
Proof. exact copy_identical. Qed.
Print Assumptions C68_copy_identical.

(* C68: without that hypothesis it is the same solver, or AttributeError is raised. *)
Theorem C68_copy_total :
  forall X s l,
  made_solver s -> lsq_copy (srun X s l) = Ok (srun X s l) \/ lsq_copy (srun X s l) = Err AttributeError.
Proof. exact copy_total. Qed.
Print Assumptions C68_copy_total.

(* C68, refuted in general: a solver whose fit() raised cannot be copied. *)
Theorem C68_copy_refuted :
  exists X s D Z, made_solver s /\ snd (lsq_fit X s D Z) = Err ValueError /\ lsq_copy (fst (lsq_fit X s D Z)) = Err AttributeError.
Proof. exact copy_refuted. Qed.
Print Assumptions C68_copy_refuted.

(* C68: verify() returns and leaves the files as they were, for every solver of the library after any calls of fit() and regularizers that returned, if solve() returns. *)
Theorem C68_library_accepted :
  forall X I s l f Oh,
  lsx_ok X -> made_solver s -> fresh_solver (x_lsvd X) s -> Forall good_sev l -> calls_returned X s l ->
  lsq_solve X (srun X s l) = Ok Oh -> f stempfile = None ->
  exists f', solver_verify X I calm (srun X s l) f = (f', Done) /\ same_files f f'.
Proof. exact library_verified. Qed.
Print Assumptions C68_library_accepted.

(* C68: also after regularizers that were refused, it returns exactly if solve() returns an array of the right shape, raises VerificationError if the shape is wrong, and passes on the exception of solve(). *)
Theorem C68_library_verdict :
  forall X I s l f D Z,
  made_solver s -> fits_returned X s l -> plain_regs (srun X s l) -> lsq_data (srun X s l) = Some (D, Z) -> f stempfile = None ->
  exists f', same_files f f' /\
  solver_verify X I calm (srun X s l) f = (f', match lsq_solve X (srun X s l) with
                                    | Err e => Raised e
                                    | Ok Oh => if (nrows Oh =? nrows Z) && (ncols Oh =? ncols D) then Done else Raised VerificationError
                                    end).
Proof. exact solver_verified. Qed.
Print Assumptions C68_library_verdict.

(* C68: the wrong shape happens: a regularizer of the wrong length that the setter refused and kept. *)
Theorem C68_stale_regularizer :
  exists X s l Oh, lsx_ok X /\ made_solver s /\ fresh_solver (x_lsvd X) s /\ Forall good_sev l /\ fits_returned X s l /\
  lsq_solve X (srun X s l) = Ok Oh /\
  forall I, exists f', same_files (fun _ => None) f' /\ solver_verify X I calm (srun X s l) (fun _ => None) = (f', Raised VerificationError).
Proof. exact stale_regularizer. Qed.
Print Assumptions C68_stale_regularizer.

(* C68: PlainSolver, after one fit. *)
Theorem C68_plain_accepted :
  forall X I p D0 Z0 p' Oh f,
  lstsq_spec (x_lstsq X) (pl_opts p) -> o_driver (pl_opts p) <> Some "NULL" -> pl_data p = None -> good_arr D0 -> good_arr Z0 ->
  plain_fit p D0 Z0 = Ok p' -> plain_solve (x_lstsq X) p' = Ok Oh -> f stempfile = None ->
  exists f', solver_verify X I calm (LPlain p') f = (f', Done) /\ same_files f f'.
Proof. exact plain_verified. Qed.
Print Assumptions C68_plain_accepted.

(* C68: L2Solver with a positive regularizer, after one fit; solve() always returns. *)
Theorem C68_l2_accepted :
  forall X I lam D0 Z0 p f,
  svd_spec (x_lsvd X) -> (0 < lam)%R -> good_arr D0 -> good_arr Z0 ->
  l2_fit (x_lsvd X) {| l2_reg := Some lam; l2_pre := None |} D0 Z0 = Ok p -> f stempfile = None ->
  exists f', solver_verify X I calm (LL2 p) f = (f', Done) /\ same_files f f'.
Proof. exact l2_verified. Qed.
Print Assumptions C68_l2_accepted.

(* C68: before fit() there is nothing to check; verify() returns and touches nothing. *)
Theorem C68_untrained :
  forall X I w s f,
  lsq_data s = None -> solver_verify X I w s f = (f, Done).
Proof. exact solver_untrained. Qed.
Print Assumptions C68_untrained.

(* C68: if verify() of any solver returns, solve() has shape (r, d) and copy(), save() and load() keep the class, the dimensions and the solution, up to the documented tolerances. *)
Theorem C68_accepted_is_checked :
  forall o f f' k d r,
  so_dims (vs_self o) = Some (k, d, r) -> v_solver o f = (f', Done) -> solver_checked o f k d r.
Proof. exact solver_accepted. Qed.
Print Assumptions C68_accepted_is_checked.

(* C68: verify() changes no other file and, unless the process is killed, does not leave its temporary file. *)
Theorem C68_files :
  forall o f f' st,
  (forall c sv ld, vs_copy o = Ok (c, Some sv, ld) -> writes_only sv) -> v_solver o f = (f', st) ->
  (forall p, p <> stempfile -> f' p = f p) /\ (so_dims (vs_self o) <> None -> st <> Killed -> ~ is_file f' stempfile).
Proof. exact solver_files. Qed.
Print Assumptions C68_files.

(* C68, refuted: a file of the users own that has that name is removed. *)
Theorem C68_user_file_refuted :
  forall X I w s f f' st,
  lsq_data s <> None -> is_file f stempfile -> solver_verify X I w s f = (f', st) -> st <> Killed -> ~ is_file f' stempfile.
Proof. exact solver_file_lost. Qed.
Print Assumptions C68_user_file_refuted.

(* ---- the hypotheses can be met ---- *)
Definition I68 : spi := {| si_name := fun _ => "C"; si_attr := fun _ => None |}.
Definition calls68 : list sev := [SFit (M [[1]]%R) (M [[3]]%R); SFit (M [[1]]%R) (M [[2]]%R)].
Example C68_example_calls : lsx_ok X0 /\ made_solver new_plain /\ fresh_solver (x_lsvd X0) new_plain /\ Forall good_sev calls68 /\ calls_returned X0 new_plain calls68 /\ fits_returned X0 new_plain calls68 /\
  lsq_solve X0 (srun X0 new_plain calls68) = Ok [[2]]%R /\ srun X0 new_plain calls68 <> new_plain.
Proof.
  split; [exact X0_ok|]. split; [split; [reflexivity|discriminate]|]. split; [reflexivity|]. split.
  { repeat constructor; apply (good_mat 1 1); try lia; split; repeat constructor. }
  split; [repeat split|]. split; [repeat split|]. split; [|discriminate].
  cbn -[lst0]. rewrite lst0_ok. reflexivity.
Qed.
Example C68_example_accepted : exists f', solver_verify X0 I68 calm (srun X0 new_plain calls68) (fun _ => None) = (f', Done) /\ same_files (fun _ => None) f'.
Proof. destruct C68_example_calls as (H1 & H2 & H3 & H4 & H5 & _ & H6 & _). exact (C68_library_accepted X0 I68 new_plain calls68 (fun _ => None) _ H1 H2 H3 H4 H5 H6 eq_refl). Qed.
Example C68_example_copy : lsq_copy (srun X0 new_plain calls68) = Ok (srun X0 new_plain calls68).
Proof. destruct C68_example_calls as (_ & H2 & _ & _ & _ & H5 & _). exact (C68_copy_identical X0 new_plain calls68 H2 H5). Qed.
(* a file of the user with the name of the temporary file *)
Example C68_example_user_file : exists f f' st, is_file f stempfile /\ solver_verify X0 I68 calm (srun X0 new_plain calls68) f = (f', st) /\ st <> Killed /\ ~ is_file f' stempfile.
Proof.
  exists (fun p => if String.eqb p stempfile then Some (File None) else None).
  destruct (solver_verify X0 I68 calm (srun X0 new_plain calls68) _) as [f' st] eqn:E. exists f', st. assert (HF : is_file (fun p => if String.eqb p stempfile then Some (File None) else None) stempfile) by (eexists; reflexivity).
  assert (ND : st <> Killed).
  { destruct C68_example_calls as (H1 & H2 & H3 & H4 & H5 & H6 & H7 & _).
    destruct (solver_verdict X0 I68 (srun X0 new_plain calls68) (fun p => if String.eqb p stempfile then Some (File None) else None) [[1]]%R [[2]]%R) as (g & _ & _ & G); try (split; [discriminate|reflexivity]); try reflexivity; try exact Logic.I; [discriminate|].
    rewrite G, H7 in E. injection E as <- <-. cbn. discriminate. }
  do 3 (split; [solve [auto]|]). refine (C68_user_file_refuted X0 I68 calm _ _ f' st _ HF E ND). discriminate.
Qed.
(* classes of users: one that is right, one whose copy() returns another class *)
Definition sx68 : solx := {| so_class := "Mine"; so_dims := Some (3, 2, 1); so_solve := Ok (M [[1; 2]]%R) |}.
Definition good68 : vsol := {| vs_self := sx68; vs_copy := Ok (sx68, None, None) |}.
Definition bad68 : vsol := {| vs_self := sx68; vs_copy := Ok ({| so_class := "Other"; so_dims := Some (3, 2, 1); so_solve := Ok (M [[1; 2]]%R) |}, None, None) |}.
Example C68_example_user : v_solver good68 (fun _ => None) = (fun _ => None, Done) /\ v_solver bad68 (fun _ => None) = (fun _ => None, Raised VerificationError).
Proof.
  split; [|reflexivity]. unfold v_solver, good68, v_solver_copy. cbn [vs_self so_dims sx68 so_solve bind vs_copy so_class]. change (mshape 1 2 (M [[1; 2]]%R)) with true. cbn [rassert bind]. rewrite String.eqb_refl. cbn [rassert bind].
  unfold same_solver. rewrite dims_refl. change (so_solve sx68) with (Ok (M [[1; 2]]%R)). cbn [rassert bind]. rewrite bclose_refl_mat. reflexivity.
Qed.
