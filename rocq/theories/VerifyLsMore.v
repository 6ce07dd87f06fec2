(* VerifyLsMore.v -- verify() of particular solvers of the library. *)
From Coq Require Import String ZArith Lia Lra.
From Verif Require Import SolverProofs SolverCond SpecLstsq AffProofs OpsProofs MonoSolver.
From Verif Require Export VerifyLsProofs.
#[local] Open Scope string_scope.
#[local] Open Scope nat_scope.
#[local] Open Scope list_scope.

Lemma is_mat_shape2 r c A : 0 < r -> is_mat r c A -> (nrows A =? r) && (ncols A =? c) = true.
Proof. intros H1 H2. rewrite (is_mat_nrows _ _ _ H2), (ncols_is_mat r c A H2 H1), !Nat.eqb_refl. reflexivity. Qed.
Lemma good_rows a : good_arr a -> 0 < nrows (atleast_2d a).
Proof. destruct a as [v|m]; cbn -[nrows]; [unfold nrows; cbn; lia|]. intros (r & c & H1 & H2 & H3). rewrite (is_mat_nrows _ _ _ H3). auto. Qed.
(* PlainSolver: if scipy's lstsq returns for these data, verify() returns *)
Lemma plain_verified X I p D0 Z0 p' Oh f : lstsq_spec (x_lstsq X) (pl_opts p) -> o_driver (pl_opts p) <> Some "NULL" -> pl_data p = None -> good_arr D0 -> good_arr Z0 ->
  plain_fit p D0 Z0 = Ok p' -> plain_solve (x_lstsq X) p' = Ok Oh -> f stempfile = None ->
  exists f', solver_verify X I calm (LPlain p') f = (f', Done) /\ same_files f f'.
Proof.
  intros HL HN HP HD HZ HF HS Hf.
  destruct (plain_solves (x_lstsq X) p D0 Z0 p' Oh HL HD HZ HF HS) as (D & Z & E & E1 & E2 & [[HM _] _]).
  destruct (solver_verified X I (LPlain p) [SFit D0 Z0] f D Z) as [f' [H1 H2]]; auto.
  - split; cbn; auto.
  - cbn. split; auto. intros A B [= <- <-]. now rewrite HF.
  - cbn. now rewrite HF.
  - cbn. rewrite HF. exact E.
  - cbn [srun sstep lsq_fit] in H2. rewrite HF in H2. cbn [keep fst] in H2. exists f'. split; auto. rewrite H2. cbn [lsq_solve]. rewrite HS.
    assert (Hr : 0 < nrows Z) by (subst Z; now apply good_rows). rewrite (is_mat_shape2 _ _ _ Hr HM). reflexivity.
Qed.
(* L2Solver with a positive regularizer: verify() always returns once it is fit *)
Lemma l2_verified X I lam D0 Z0 p f : svd_spec (x_lsvd X) -> (0 < lam)%R -> good_arr D0 -> good_arr Z0 ->
  l2_fit (x_lsvd X) {| l2_reg := Some lam; l2_pre := None |} D0 Z0 = Ok p -> f stempfile = None ->
  exists f', solver_verify X I calm (LL2 p) f = (f', Done) /\ same_files f f'.
Proof.
  intros HX HL HD HZ HF Hf. set (s0 := {| l2_reg := Some lam; l2_pre := None |}) in *.
  assert (R0 : l2_reach (x_lsvd X) s0).
  { replace s0 with (fst (l2_set {| l2_reg := None; l2_pre := None |} (RScalar lam))); [apply l2r_reg, l2r_new|]. unfold l2_set. destruct (Rlt_dec lam 0); [lra|reflexivity]. }
  assert (R1 : l2_reach (x_lsvd X) p) by exact (l2r_fit _ _ _ _ _ R0 HD HZ HF).
  destruct (proj1 fits_record (x_lsvd X) s0 D0 Z0 p HX HD HZ HF) as (D' & ED & EP & ER). cbn in ER.
  destruct (l2_defined (x_lsvd X) p D' (atleast_2d Z0) lam HX R1 EP ER) as [Oh EO]; [lra|].
  destruct (l2_solves (x_lsvd X) p D' (atleast_2d Z0) lam Oh HX R1 EP ER EO) as [[HM _] _].
  destruct (solver_verified X I (LL2 s0) [SFit D0 Z0] f D' (atleast_2d Z0)) as [f' [H1 H2]]; auto.
  - split; [cbn; auto|]. intros x [= <-]. lra.
  - cbn [fits_returned sstep lsq_fit]. split; auto. intros A B [= <- <-]. now rewrite HF.
  - cbn [srun sstep lsq_fit]. rewrite HF. exact Logic.I.
  - cbn [srun sstep lsq_fit]. rewrite HF. exact EP.
  - cbn [srun sstep lsq_fit] in H2. rewrite HF in H2. cbn [keep fst] in H2. exists f'. split; auto. rewrite H2. cbn [lsq_solve]. rewrite EO.
    rewrite (is_mat_shape2 _ _ _ (good_rows _ HZ) HM). reflexivity.
Qed.
(* every solver of the library: if every call returned, and solve() returns, verify() returns *)
Definition tidy (X : lsx) (s : lsq) : Prop := winv X s /\ (lsq_data s = None \/ exists D Z, clean X s D Z).
Lemma clean_data X s D Z : clean X s D Z -> lsq_data s = Some (D, Z).
Proof. intros [_ H]. destruct s; cbn in *; tauto. Qed.
Lemma setreg_data s g : lsq_data (fst (lsq_setreg s g)) = lsq_data s.
Proof.
  destruct s, g; cbn; auto.
  - destruct g; cbn; try destruct (Rlt_dec _ _); reflexivity.
  - destruct g; cbn; try destruct (negs _); reflexivity.
  - unfold tk_set. destruct g as [[v|m]|]; cbn; repeat match goal with |- context [if ?b then _ else _] => destruct b end; reflexivity.
  - unfold td_set. destruct g as [l|]; cbn; [|reflexivity]. destruct (mapM _ l); cbn; reflexivity.
  - unfold ts_set. repeat match goal with |- context [match ?b with _ => _ end] => destruct b; cbn end; reflexivity.
Qed.
Lemma srun_tidy X l : lsx_ok X -> forall s, tidy X s -> Forall good_sev l -> calls_returned X s l -> tidy X (srun X s l).
Proof.
  intros HX. induction l as [|ev l IH]; intros s H HG HC; [exact H|]. inversion HG as [|e0 l0 H1 H2 E0]; subst. destruct HC as [C1 C2]. cbn [srun]. apply IH; auto. clear IH C2.
  destruct H as [HW HD]. destruct ev as [D Z|g]; cbn [sstep good_sev] in *.
  - destruct H1 as [G1 G2]. destruct (lsq_fit X s D Z) as [s' st] eqn:E. cbn in C1. subst st. split; [pose proof (lsq_fit_winv X s D Z HW G1 G2) as K; now rewrite E in K|].
    right. destruct (lsq_fit_clean X s D Z s' HX HW G1 G2 E) as (D' & _ & K & _). eauto.
  - split; [now apply lsq_setreg_winv|]. destruct HD as [HD|(D & Z & HD)]; [left; now rewrite setreg_data|]. right. exists D, Z. destruct (lsq_setreg s g) as [s' st] eqn:E. cbn in C1. subst st.
    exact (lsq_setreg_clean X s g s' D Z HW H1 HD E).
Qed.
Lemma returned_fits X s l : calls_returned X s l -> fits_returned X s l.
Proof. revert s. induction l as [|ev l IH]; intros s H; [exact H|]. destruct H as [H1 H2]. split; auto. Qed.
Lemma new_data s : new_solver s -> lsq_data s = None.
Proof. destruct s; cbn; try tauto; intros ->; reflexivity. Qed.
Lemma solve_data X s Oh : lsq_solve X s = Ok Oh -> lsq_data s <> None.
Proof.
  destruct s as [p|p|p|p|p|p|p]; cbn; intros H K.
  - unfold plain_solve in H. rewrite K in H. discriminate.
  - unfold l2_solve in H. destruct (l2_pre p); discriminate.
  - unfold ld_solve in H. destruct (ld_pre p); discriminate.
  - unfold tk_solve in H. rewrite K in H. discriminate.
  - unfold td_solve in H. rewrite K in H. discriminate.
  - unfold ts_solve in H. destruct (ts_pre p); discriminate.
  - unfold tls_solve in H. rewrite K in H. discriminate.
Qed.
Lemma ts_reach_modes svd p : ts_reach svd p -> ts_pre p <> None -> ts_modes p <> None.
Proof.
  intros H. induction H; cbn in *; try congruence.
  - intros _. unfold ts_fit in *. match goal with H : _ = Ok _ |- _ => revert H end. destruct (svd_fit _ _ _); cbn; [|discriminate]. intros [= <-]. discriminate.
  - unfold ts_set. destruct n as [n|], (ts_max s) eqn:E; cbn; try congruence; [destruct (_ <? _)%Z; cbn; auto; congruence|].
    intros K. unfold ts_max in E. destruct (ts_pre s); [discriminate|congruence].
Qed.
Lemma clean_regs X s D Z : clean X s D Z -> plain_regs s.
Proof.
  intros [(k & d & r & K1 & K2 & K3 & KD & KZ) H]. destruct s as [p|p|p|p|p|p|p]; cbn in *; auto.
  - intros Gs EG. destruct H as (_ & _ & H). destruct (H Gs EG) as [_ HF]. unfold same_shapes. destruct Gs as [|G Gs]; auto. inversion HF as [|? ? HG HR]; subst. apply forallb_forall. intros A HA.
    rewrite Forall_forall in HR. specialize (HR A HA). assert (P : 0 < ncols D) by (rewrite (ncols_is_mat k d D KD K1); auto). rewrite (is_mat_nrows _ _ _ HG), (is_mat_nrows _ _ _ HR), (ncols_is_mat _ _ _ HG P), (ncols_is_mat _ _ _ HR P), !Nat.eqb_refl. reflexivity.
  - destruct H as [H1 H2]. apply (ts_reach_modes _ _ H1). intros E. rewrite E in H2. discriminate.
Qed.
Lemma library_verified X I s l f Oh : lsx_ok X -> made_solver s -> fresh_solver (x_lsvd X) s -> Forall good_sev l -> calls_returned X s l ->
  lsq_solve X (srun X s l) = Ok Oh -> f stempfile = None ->
  exists f', solver_verify X I calm (srun X s l) f = (f', Done) /\ same_files f f'.
Proof.
  intros HX HM HF HG HC HS Hf. assert (T0 : tidy X s) by (split; [now apply fresh_winv|left; apply new_data, HM]).
  destruct (srun_tidy X l HX s T0 HG HC) as [_ [K|(D & Z & K)]]; [now destruct (solve_data X _ Oh HS)|].
  destruct (solver_verified X I s l f D Z HM (returned_fits X s l HC) (clean_regs X _ D Z K) (clean_data X _ D Z K) Hf) as [f' [H1 H2]]. exists f'. split; auto. rewrite H2, HS.
  destruct (lsq_solve_clean X _ D Z Oh HX K HS) as [HO _]. destruct K as [(k & d & r & K1 & K2 & K3 & KD & KZ) _].
  assert (P : 0 < nrows Z) by (rewrite (is_mat_nrows _ _ _ KZ); auto). rewrite (is_mat_shape2 _ _ _ P HO). reflexivity.
Qed.
