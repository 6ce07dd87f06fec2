(* VerifyLsProofs.v -- proofs about copy() and verify() of least-squares solvers. *)
From Coq Require Import String ZArith Lia Lra.
From Verif Require Import AffProofs SaveSolver SaveFile VerifyOpProofs VerifyOpRest.
From Verif Require Export SpecVerifyLs.
#[local] Open Scope string_scope.
#[local] Open Scope nat_scope.
#[local] Open Scope list_scope.

(* ---- copy() ---- *)
Lemma data_copy_ok d : dataok d -> data_copy d = Ok d.
Proof. destruct d as [[D Z]|]; [|reflexivity]. intros H. unfold data_copy. cbn -[base_fit] in H. now rewrite H. Qed.
Lemma svd_copy_ok p : dataok (odata p) -> svd_copy p = Ok p.
Proof. destruct p as [[D Z sv A B]|]; [|reflexivity]. intros H. unfold svd_copy. cbn -[base_fit] in *. now rewrite H. Qed.
Lemma copy_same s : svinv s -> whole s -> lsq_copy s = Ok s.
Proof.
  intros H W. destruct s as [p|p|p|p|p|p|p]; cbn [svinv whole] in *; cbn [lsq_copy].
  - unfold plain_copy. destruct H as [_ H]. rewrite (data_copy_ok _ H). destruct p; reflexivity.
  - unfold l2_copy. destruct H as [H1 H2]. rewrite (svd_copy_ok _ H2). destruct p as [[x|] pre]; cbn; [|reflexivity].
    unfold l2_set. cbn. destruct (Rlt_dec x 0); [specialize (H1 x eq_refl); lra|reflexivity].
  - unfold ld_copy. destruct H as [H1 H2]. rewrite (svd_copy_ok _ H2). destruct p as [[x|] pre]; cbn -[negs]; [|reflexivity].
    unfold ld_set. cbn -[negs]. cbn in H1. rewrite (H1 x eq_refl). reflexivity.
  - unfold tk_copy. destruct H as [_ [H2 H3]]. rewrite (data_copy_ok _ H2). destruct p as [G mt op [dz|] [pre|]]; cbn in *; try (exfalso; apply W; congruence); try (specialize (H3 eq_refl); discriminate);
      destruct G; reflexivity.
  - unfold td_copy. destruct H as [H2 H3]. rewrite (data_copy_ok _ H2). destruct p as [Gs mt [dz|] [pre|]]; cbn -[td_set] in *; try (exfalso; apply W; congruence); try (specialize (H3 eq_refl); discriminate);
      destruct Gs as [Gs|]; cbn -[td_set]; try reflexivity; unfold td_set;
      (replace (mapM td_one (map M Gs)) with (Ok Gs) by (clear; induction Gs as [|G Gs IH]; [reflexivity|]; cbn; rewrite <- IH; reflexivity)); reflexivity.
  - unfold ts_copy. rewrite (svd_copy_ok _ H). destruct p as [[n|] pre]; reflexivity.
  - unfold tls_copy. destruct H as [H1 H2]. rewrite (data_copy_ok _ H1). destruct p as [[dz|] [x|]]; cbn in *; try (exfalso; apply W; congruence); try (specialize (H2 eq_refl); discriminate); reflexivity.
Qed.
Lemma copy_fails s : svinv s -> ~ whole s -> lsq_copy s = Err AttributeError.
Proof.
  intros H W. destruct s as [p|p|p|p|p|p|p]; cbn [svinv whole] in *; try tauto; cbn [lsq_copy].
  - unfold tk_copy. destruct H as [_ [H2 H3]]. rewrite (data_copy_ok _ H2). destruct p as [G mt op [dz|] [pre|]]; cbn in *; try (exfalso; apply W; congruence); destruct G; reflexivity.
  - unfold td_copy. destruct H as [H2 H3]. rewrite (data_copy_ok _ H2). destruct p as [Gs mt [dz|] [pre|]]; cbn -[td_set] in *; try (exfalso; apply W; congruence);
      destruct Gs as [Gs|]; cbn -[td_set]; try reflexivity; unfold td_set;
      (replace (mapM td_one (map M Gs)) with (Ok Gs) by (clear; induction Gs as [|G Gs IH]; [reflexivity|]; cbn; rewrite <- IH; reflexivity)); reflexivity.
  - unfold tls_copy. destruct H as [H1 H2]. rewrite (data_copy_ok _ H1). destruct p as [[dz|] [x|]]; cbn in *; try (exfalso; apply W; congruence); reflexivity.
Qed.
Lemma copy_identical X s l : made_solver s -> fits_returned X s l -> lsq_copy (srun X s l) = Ok (srun X s l).
Proof. intros H F. apply copy_same; [apply srun_svinv; now apply made_svinv|]. apply srun_whole; auto. now apply made_whole. Qed.
Lemma whole_dec s : {whole s} + {~ whole s}.
Proof.
  destruct s as [p|p|p|p|p|p|p]; cbn; auto.
  - destruct (tk_data p), (tk_pre p); first [left; congruence|right; intros H; apply H; congruence].
  - destruct (td_data p), (td_pre p); first [left; congruence|right; intros H; apply H; congruence].
  - destruct (tl_data p), (tl_sol p); first [left; congruence|right; intros H; apply H; congruence].
Qed.
(* whatever has been done to the solver, copy() gives the same solver or AttributeError *)
Lemma copy_total X s l : made_solver s -> lsq_copy (srun X s l) = Ok (srun X s l) \/ lsq_copy (srun X s l) = Err AttributeError.
Proof.
  intros H. destruct (srun_svinv X l s (made_svinv s H)) as [A _]. destruct (whole_dec (srun X s l)); [left; now apply copy_same|right; now apply copy_fails].
Qed.

(* ---- verify() ---- *)
Lemma bclose_refl_mat A : bclose (M A) (M A) = Ok true.
Proof.
  unfold bclose. cbn [as2]. unfold bcdim. rewrite !Nat.eqb_refl. f_equal. apply forallb_forall. intros i _. apply forallb_forall. intros j _. apply rclose_refl.
Qed.
Lemma dims_refl d : dims_eqb d d = true.
Proof. destruct d as [[[a b] c]|]; cbn; rewrite ?Nat.eqb_refl; reflexivity. Qed.
Lemma same_refl X s Oh : lsq_solve X s = Ok Oh -> same_solver (lib_sx X s) (lib_sx X s) (M Oh) = Ok tt.
Proof. intros H. unfold same_solver. rewrite dims_refl. cbn [rassert bind lib_sx so_solve]. rewrite H. cbn [bind]. now rewrite bclose_refl_mat. Qed.
Lemma solver_untrained X I w s f : lsq_data s = None -> solver_verify X I w s f = (f, Done).
Proof. intros H. unfold solver_verify, v_solver. cbn [lib_solver vs_self lib_sx so_dims]. now rewrite H. Qed.
Lemma save_true I f p x : saves I x -> f p <> Some Dir -> exists f', save I calm f p (Some true) x = (f', Done).
Proof.
  intros HS N. destruct (HS (fun _ => None) p eq_refl) as [f' E]. unfold save in E. apply save_done in E.
  destruct E as [a [l [E _]]]. unfold save, save_file. destruct (f p) as [[c|]|] eqn:Q; [|congruence|]; cbn; rewrite E; eauto.
Qed.
Lemma remove_none p f : ~ is_file f p -> remove_file p f = f.
Proof. intros H. unfold remove_file. destruct (f p) as [[c|]|] eqn:E; auto. exfalso. apply H. exists c. auto. Qed.
Lemma solver_verdict X I s f D Z : svinv s -> whole s -> plain_regs s -> lsq_data s = Some (D, Z) -> f stempfile <> Some Dir ->
  exists f', (forall p, p <> stempfile -> f' p = f p) /\ f' stempfile = None /\
  solver_verify X I calm s f = (f', match lsq_solve X s with
                                    | Err e => Raised e
                                    | Ok Oh => if shape_is (nrows Z) (ncols D) Oh then Done else Raised VerificationError
                                    end).
Proof.
  intros HI HW HR HD Hf. unfold solver_verify, v_solver. cbn [lib_solver vs_self lib_sx so_dims]. rewrite HD. cbn [option_map fst snd].
  unfold v_solver_copy. cbn [lib_solver vs_self vs_copy]. unfold lib_sx at 1. cbn [so_solve].
  assert (G : forall g, (forall p, p <> stempfile -> g p = f p) -> g stempfile <> Some Dir -> (forall p, p <> stempfile -> remove_file stempfile g p = f p) /\ remove_file stempfile g stempfile = None).
  { intros g H1 H2. split; [intros p N; rewrite remove_other; auto|]. unfold remove_file. destruct (g stempfile) as [[c|]|] eqn:E; [now rewrite String.eqb_refl|congruence|congruence]. }
  destruct (lsq_solve X s) as [Oh|e] eqn:ES; cbn [bind].
  2:{ exists (remove_file stempfile f). destruct (G f) as [G1 G2]; auto. }
  cbn [mshape]. destruct (shape_is (nrows Z) (ncols D) Oh) eqn:EH; cbn [rassert bind].
  2:{ exists (remove_file stempfile f). destruct (G f) as [G1 G2]; auto. }
  rewrite (copy_same s HI HW). cbn [bind]. cbn [lib_sx so_class]. rewrite String.eqb_refl. cbn [rassert bind]. rewrite (same_refl X s Oh ES). cbn [bind].
  unfold v_solver_save. destruct (save_true I f stempfile (SvSolver s) (solver_saves I s HW HR) Hf) as [f' E]. rewrite E.
  pose proof (solver_loads I s HI _ _ _ _ _ E) as EL. rewrite EL. cbn [bind]. rewrite (same_refl X s Oh ES). cbn [stat_of].
  exists (remove_file stempfile f'). assert (K : forall p, p <> stempfile -> f' p = f p).
  { intros p N. pose proof (save_other I calm f stempfile (Some true) (SvSolver s) p N) as U. rewrite E in U. exact U. }
  destruct (G f' K) as [G1 G2]; auto.
  apply save_done in E. destruct E as [a [l [_ ->]]]. rewrite fset_same. discriminate.
Qed.
Lemma solver_verified X I s l f D Z : made_solver s -> fits_returned X s l -> plain_regs (srun X s l) -> lsq_data (srun X s l) = Some (D, Z) -> f stempfile = None ->
  exists f', same_files f f' /\
  solver_verify X I calm (srun X s l) f = (f', match lsq_solve X (srun X s l) with
                                    | Err e => Raised e
                                    | Ok Oh => if (nrows Oh =? nrows Z) && (ncols Oh =? ncols D) then Done else Raised VerificationError
                                    end).
Proof.
  intros H F P HD Hf. destruct (solver_verdict X I (srun X s l) f D Z) as [f' [H1 [H2 H3]]]; auto.
  - apply srun_svinv; now apply made_svinv.
  - apply srun_whole; auto. now apply made_whole.
  - congruence.
  - exists f'. split; auto. intros p. destruct (String.eqb_spec p stempfile) as [->|N]; [congruence|auto].
Qed.

(* x <- e; k returned *)
Tactic Notation "take" hyp(H) ident(a) ident(E) := match type of H with bind ?x _ = _ => destruct x as [a|] eqn:E; cbn [bind] in H; [|discriminate H] end.
(* whatever the solver: other files are not touched, and the file is gone in the end *)
Lemma solver_files o f f' st : (forall c sv ld, vs_copy o = Ok (c, Some sv, ld) -> writes_only sv) -> v_solver o f = (f', st) ->
  (forall p, p <> stempfile -> f' p = f p) /\ (so_dims (vs_self o) <> None -> st <> Killed -> ~ is_file f' stempfile).
Proof.
  intros HW. unfold v_solver. destruct (so_dims (vs_self o)) as [[[k d] r]|]; [|intros [= <- <-]; split; congruence].
  assert (G : forall f1 s1, (forall p, p <> stempfile -> f1 p = f p) -> (match s1 with Killed => (f1, Killed) | _ => (remove_file stempfile f1, s1) end) = (f', st) ->
     (forall p, p <> stempfile -> f' p = f p) /\ (Some (k, d, r) <> None -> st <> Killed -> ~ is_file f' stempfile)).
  { intros f1 s1 K E. destruct s1; inversion E; subst; (split; [intros p N; rewrite ?remove_other; auto|]); try (intros _ _; apply remove_gone). congruence. }
  destruct (v_solver_copy o d r) as [[[[x sv] ld] Oh]|e] eqn:E; [|apply (G f (Raised e)); auto].
  assert (W : forall g, sv = Some g -> writes_only g).
  { intros g ->. unfold v_solver_copy in E. take E Oh' E1. take E u1 E2. take E c E3. destruct c as [[c sv'] ld']. take E u2 E4. take E u3 E5. inversion E; subst. eapply HW; eauto. }
  destruct (v_solver_save x sv ld Oh f) as [f1 s1] eqn:E1. apply G. intros p N.
  unfold v_solver_save in E1. destruct sv as [g|].
  - specialize (W g eq_refl f stempfile p N). destruct (g f stempfile) as [f2 s2]. cbn [fst] in W. destruct s2 as [|e|]; [destruct ld|destruct e; destruct ld|destruct ld]; inversion E1; subst; auto.
  - inversion E1; subst; auto.
Qed.
Lemma solver_accepted o f f' k d r : so_dims (vs_self o) = Some (k, d, r) -> v_solver o f = (f', Done) -> solver_checked o f k d r.
Proof.
  intros HD. unfold v_solver. rewrite HD. destruct (v_solver_copy o d r) as [[[[x sv] ld] Ohat]|e] eqn:E; [|discriminate].
  destruct (v_solver_save x sv ld Ohat f) as [f1 s1] eqn:E1. intros H. assert (ES : s1 = Done) by (destruct s1; inversion H; auto). subst s1. clear H.
  unfold v_solver_copy in E. take E Oh' E0. take E u1 E2. destruct u1. apply rassert_inv in E2. take E c EC. destruct c as [[c sv'] ld']. take E u2 E3. destruct u2. apply rassert_inv, String.eqb_eq in E3. take E u3 E4. destruct u3. inversion E; subst; clear E.
  destruct Ohat as [v|Oh]; [discriminate|]. cbn in E2. apply shape_inv in E2. destruct E2 as [E5 E6].
  assert (SAME : forall a b, same_solver a b (M Oh) = Ok tt -> so_dims a = Some (k, d, r) -> so_dims b = Some (k, d, r) /\ exists O2, so_solve b = Ok O2 /\ all_close O2 (M Oh)).
  { intros a b H HA. unfold same_solver in H. take H u1 E. destruct u1. apply rassert_inv in E. take H O2 EO. take H cc EB. apply rassert_inv in H. subst cc. apply VerifyOpProofs.bclose_iff in EB.
    split; [|eauto]. rewrite HA in E. unfold dims_eqb in E. destruct (so_dims b) as [[[k' d'] r']|]; [|discriminate]. apply Bool.andb_true_iff in E. destruct E as [E F]. apply Bool.andb_true_iff in E. destruct E as [E E']. apply Nat.eqb_eq in E, E', F. congruence. }
  destruct (SAME _ _ E4 HD) as [D2 [O2 [S2 C2]]].
  exists Oh, x, sv, ld, O2. do 9 (split; [solve [auto]|]). intros sv1 ld1 f2 y -> -> Es El.
  unfold v_solver_save in E1. rewrite Es, El in E1. cbn [bind] in E1.
  unfold same_solver in E1. rewrite D2 in E1. destruct (dims_eqb (Some (k, d, r)) (so_dims y)) eqn:ED; cbn [rassert bind] in E1; [|discriminate].
  assert (DY : so_dims y = Some (k, d, r)).
  { unfold dims_eqb in ED. destruct (so_dims y) as [[[k' d'] r']|]; [|discriminate]. apply Bool.andb_true_iff in ED. destruct ED as [E F]. apply Bool.andb_true_iff in E. destruct E as [E E']. apply Nat.eqb_eq in E, E', F. congruence. }
  split; auto. destruct (so_solve y) as [O3|e]; cbn [bind] in E1.
  - right. exists O3. split; auto. apply VerifyOpProofs.bclose_iff. unfold bclose in *. destruct (bcdim _ _); [destruct (bcdim _ _)|]; cbn [bind] in E1; try discriminate. destruct (forallb _ _); [reflexivity|discriminate].
  - left. destruct e; try discriminate. reflexivity.
Qed.
(* the file is the user's own: it is lost, whatever happens, and even if solve() raises *)
Lemma solver_file_lost X I w s f f' st : lsq_data s <> None -> is_file f stempfile -> solver_verify X I w s f = (f', st) -> st <> Killed -> ~ is_file f' stempfile.
Proof.
  intros HD Hf E. apply solver_files in E.
  - destruct E as [_ E]. apply E. cbn. destruct (lsq_data s); [discriminate|congruence].
  - intros c sv ld Ec. cbn [lib_solver vs_copy] in Ec. take Ec a Ea. inversion Ec; subst. intros g p q N. apply (save_other I w g p (Some true) (SvSolver a) q N).
Qed.
(* a fit() that raised leaves a solver that cannot be copied *)
Lemma copy_refuted : exists X s D Z, made_solver s /\ snd (lsq_fit X s D Z) = Err ValueError /\ lsq_copy (fst (lsq_fit X s D Z)) = Err AttributeError.
Proof.
  exists {| x_lstsq := fun _ _ _ => Err OtherError; x_lsvd := fun _ => Err OtherError; x_lsolve := fun _ _ => Err OtherError |}, (LTls {| tl_data := None; tl_sol := None |}), (M [[1%R]]), (M [[2%R]]).
  split; [repeat split|]. split; reflexivity.
Qed.
