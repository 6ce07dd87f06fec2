(* ReqSolver.v -- C54 for the least-squares solvers. *)
From Coq Require Import ZArith Lia.
From Verif Require Export SpecReq.
#[local] Open Scope nat_scope.

(* no data and no precomputation *)
Definition empty_s := new_solver.
Lemma setreg_new s g : new_solver s -> new_solver (fst (lsq_setreg s g)).
Proof. intros H. destruct s as [p|p|p|p|p|p|p], g as [g|g|g|g]; cbn; auto; cbn in H.
  - unfold l2_set. destruct g; cbn; auto. destruct (Rlt_dec _ _); cbn; auto.
  - unfold ld_set. destruct g; cbn; auto. destruct (negs _); cbn; auto.
  - unfold tk_set. destruct g as [[v|G]|]; cbn; auto. destruct (negs v); cbn; auto.
  - unfold td_set. destruct g as [l|]; cbn; auto. destruct (mapM td_one l); cbn; auto.
  - unfold ts_set, ts_max. rewrite H. destruct g; cbn; auto. Qed.
Lemma srun_new X l : forall s, new_solver s -> ~ fit_called l -> new_solver (srun X s l).
Proof. induction l as [|ev l IH]; intros s H HN; auto. cbn. apply IH.
  - destruct ev as [D Z|g]; [exfalso; apply HN; exists D, Z; left; auto|]. apply setreg_new; auto.
  - intros (D & Z & HI). apply HN. exists D, Z. right; auto. Qed.
Lemma new_refuses X s O : new_solver s -> Forall refuses (solver_calls X s O).
Proof. unfold refuses, solver_calls. intros H. destruct s as [p|p|p|p|p|p|p]; cbn in H |- *.
  - unfold plain_solve, base_residual. rewrite H. repeat constructor.
  - unfold l2_posterior, l2_solve, base_residual, l2_regresidual, l2_regcond, odata. rewrite H. repeat constructor.
  - unfold ld_posterior, ld_solve, base_residual, ld_regresidual, ld_regcond, odata. rewrite H. repeat constructor.
  - destruct H as [H1 H2]. unfold tk_posterior, tk_solve, base_residual, tk_regresidual. rewrite H1. repeat constructor.
  - destruct H as [H1 H2]. unfold td_posterior, td_solve, base_residual, td_regresidual. rewrite H1. repeat constructor.
  - unfold ts_solve, base_residual, odata. rewrite H. repeat constructor.
  - destruct H as [H1 H2]. unfold tls_solve, base_residual. rewrite H1. repeat constructor. Qed.
Lemma solver_unfitted X s l O : new_solver s -> ~ fit_called l -> Forall refuses (solver_calls X (srun X s l) O).
Proof. intros H HN. apply new_refuses. apply srun_new; auto. Qed.

(* no precomputation, whatever a raising fit left in data_matrix and lhs_matrix *)
Definition no_pre (s : lsq) : Prop :=
  match s with LPlain p => pl_data p = None | LL2 p => l2_pre p = None | LL2D _ => False | LTik p => tk_pre p = None
             | LTikD p => td_pre p = None | LTsvd p => ts_pre p = None | LTls p => tl_sol p = None end.
Lemma setreg_no_pre s g : no_pre s -> no_pre (fst (lsq_setreg s g)).
Proof. intros H. destruct s as [p|p|p|p|p|p|p], g as [g|g|g|g]; cbn; auto; cbn in H.
  - unfold l2_set. destruct g; cbn; auto. destruct (Rlt_dec _ _); cbn; auto.
  - unfold tk_set. destruct g as [[v|G]|]; cbn; auto. destruct (negs v); cbn; auto.
  - unfold td_set. destruct g as [l|]; cbn; auto. destruct (mapM td_one l); cbn; auto.
  - unfold ts_set, ts_max. rewrite H. destruct g; cbn; auto. Qed.
Lemma fit_no_pre X s D Z : no_pre s -> snd (lsq_fit X s D Z) <> Ok tt -> no_pre (fst (lsq_fit X s D Z)).
Proof. intros H HN. destruct s as [p|p|p|p|p|p|p]; cbn in H, HN |- *; [| |contradiction| | | |].
  - unfold keep in *. destruct (plain_fit p D Z); cbn in *; auto. congruence.
  - unfold keep in *. destruct (l2_fit _ p D Z); cbn in *; auto. congruence.
  - unfold wrap, tk_fit in *. destruct (base_fit D Z) as [[D' Z']|e]; cbn in *; auto.
    destruct (match tk_reg p with None => _ | Some _ => _ end); cbn in *; auto. congruence.
  - unfold wrap, td_fit in *. destruct (base_fit D Z) as [[D' Z']|e]; cbn in *; auto.
    destruct (match td_reg p with None => _ | Some _ => _ end); cbn in *; auto. congruence.
  - unfold keep in *. destruct (ts_fit _ p D Z); cbn in *; auto. congruence.
  - unfold wrap, tls_fit in *. destruct (base_fit D Z) as [[D' Z']|e]; cbn in *; auto.
    repeat match goal with |- context [match ?x with _ => _ end] => destruct x; cbn in *; auto end; congruence. Qed.
Lemma srun_no_pre X l : forall s, no_pre s -> ~ fit_returned X s l -> no_pre (srun X s l).
Proof. induction l as [|ev l IH]; intros s H HN; auto. cbn in HN |- *. apply IH; [|tauto].
  destruct ev as [D Z|g]; cbn; [|apply setreg_no_pre; auto]. apply fit_no_pre; auto. intros E. apply HN. left. eauto. Qed.
Lemma solver_no_return X s l : new_solver s -> (forall p, s <> LL2D p) -> ~ fit_returned X s l -> refuses (outcome (lsq_solve X (srun X s l))).
Proof. intros H HD HN. assert (H' : no_pre (srun X s l)).
  { apply srun_no_pre; auto. destruct s; cbn in H |- *; try tauto. exfalso. eapply HD; eauto. }
  unfold refuses. destruct (srun X s l) as [p|p|p|p|p|p|p]; cbn in H' |- *; [| |contradiction| | | |].
  - unfold plain_solve. rewrite H'. auto.
  - unfold l2_solve. rewrite H'. auto.
  - unfold tk_solve. rewrite H'. destruct (tk_data p) as [[? ?]|]; auto. destruct (tk_reg p); auto.
  - unfold td_solve. rewrite H'. destruct (td_data p) as [[? ?]|]; auto. destruct (td_reg p); auto.
  - unfold ts_solve. rewrite H'. auto.
  - unfold tls_solve. rewrite H'. destruct (tl_data p); auto. Qed.

(* after a fit that returned *)
Definition has_pre (s : lsq) : Prop :=
  match s with LPlain p => pl_data p <> None | LL2 p => l2_pre p <> None | LL2D p => ld_pre p <> None | LTik p => tk_data p <> None /\ tk_pre p <> None
             | LTikD p => td_data p <> None /\ td_pre p <> None | LTsvd p => ts_pre p <> None | LTls p => tl_data p <> None /\ tl_sol p <> None end.
Lemma setreg_has_pre s g : has_pre s -> has_pre (fst (lsq_setreg s g)).
Proof. intros H. destruct s as [p|p|p|p|p|p|p], g as [g|g|g|g]; cbn; auto; cbn in H.
  - unfold l2_set. destruct g; cbn; auto. destruct (Rlt_dec _ _); cbn; auto.
  - unfold ld_set. destruct g; cbn; auto. destruct (negs _); cbn; auto.
  - unfold tk_set. destruct g as [[v|G]|]; cbn; auto. destruct (negs v); cbn; auto.
  - unfold td_set. destruct g as [l|]; cbn; auto. destruct (mapM td_one l); cbn; auto.
  - unfold ts_set. destruct g as [z|], (ts_max p) as [n|]; cbn; auto. destruct (_ <? _)%Z; cbn; auto. Qed.
Lemma fit_has_pre X s D Z : has_pre s \/ snd (lsq_fit X s D Z) = Ok tt -> has_pre (fst (lsq_fit X s D Z)).
Proof. intros H. destruct s as [p|p|p|p|p|p|p]; cbn in H |- *.
  - unfold keep, plain_fit in *. destruct (base_fit D Z) as [x|]; cbn in *; [discriminate|]. destruct H; auto; discriminate.
  - unfold keep, l2_fit in *. destruct (svd_fit _ D Z) as [x|]; cbn in *; [discriminate|]. destruct H; auto; discriminate.
  - unfold wrap, ld_fit in *. destruct (svd_fit _ D Z) as [x|]; cbn in *; [discriminate|]. destruct H; auto; discriminate.
  - unfold wrap, tk_fit in *. destruct (base_fit D Z) as [[D' Z']|e]; cbn in *; [|destruct H; auto; discriminate].
    destruct (match tk_reg p with None => _ | Some _ => _ end); cbn in *; [split; discriminate|]. destruct H as [[_ H]|H]; [split; auto; discriminate|discriminate].
  - unfold wrap, td_fit in *. destruct (base_fit D Z) as [[D' Z']|e]; cbn in *; [|destruct H; auto; discriminate].
    destruct (match td_reg p with None => _ | Some _ => _ end); cbn in *; [split; discriminate|]. destruct H as [[_ H]|H]; [split; auto; discriminate|discriminate].
  - unfold keep, ts_fit in *. destruct (svd_fit _ D Z) as [x|]; cbn in *; [discriminate|]. destruct H; auto; discriminate.
  - unfold wrap, tls_fit in *. destruct (base_fit D Z) as [[D' Z']|e]; cbn in *; [|destruct H; auto; discriminate].
    repeat match goal with |- context [match ?x with _ => _ end] => destruct x; cbn in * end;
      try (split; discriminate); (destruct H as [[_ H]|H]; [split; auto; discriminate|discriminate]). Qed.
Lemma srun_has_pre X l : forall s, has_pre s \/ fit_returned X s l -> has_pre (srun X s l).
Proof. induction l as [|ev l IH]; intros s H; [destruct H; [auto|contradiction]|]. cbn in H |- *. apply IH.
  destruct H as [H|[(D & Z & -> & E)|H]]; [left|left|right; auto].
  - destruct ev; cbn; [apply fit_has_pre|apply setreg_has_pre]; auto.
  - cbn. apply fit_has_pre; auto. Qed.

(* "does not raise AttributeError" through the combinators *)
Definition quiet {A} (x : res A) : Prop := x <> Err AttributeError.
Lemma quiet_bind {A B} (x : res A) (f : A -> res B) : quiet x -> (forall a, x = Ok a -> quiet (f a)) -> quiet (bind x f).
Proof. unfold quiet. destruct x; cbn; auto. intros H _ E. apply H. congruence. Qed.
Lemma quiet_mapM {A B} (f : A -> res B) l : (forall a, In a l -> quiet (f a)) -> quiet (mapM f l).
Proof. induction l as [|a l IH]; intros H; cbn; [discriminate|]. apply quiet_bind; [apply H; left; auto|]. intros b _. apply quiet_bind; [|discriminate].
  apply IH. intros; apply H; right; auto. Qed.
Lemma quiet_out {A} (x : res A) : quiet x -> does_not_refuse (outcome x).
Proof. unfold quiet, does_not_refuse. destruct x; cbn; [discriminate|]. intros H E. apply H. congruence. Qed.
Lemma quiet_guard b e : e <> AttributeError -> quiet (guard b e).
Proof. unfold quiet, guard. destruct b; congruence. Qed.
Ltac q := repeat first
  [ discriminate
  | apply quiet_bind; [|intros ? ?]
  | apply quiet_guard; discriminate
  | apply quiet_mapM; intros ? ?
  | match goal with |- quiet (match ?x with _ => _ end) => destruct x end
  | match goal with |- quiet (let '(_, _) := ?x in _) => destruct x end ].
Lemma q_resid d O : d <> None -> quiet (base_residual d O).
Proof. intros H. unfold base_residual, check_ohat. destruct d as [[D Z]|]; [|congruence]. q. Qed.
Lemma q_core p regs : quiet (l2_core p regs).
Proof. unfold l2_core, l2_weights. cbn zeta. q. Qed.
Lemma q_l2 p : l2_pre p <> None -> l2_reg p <> None -> quiet (l2_solve p).
Proof. intros H1 H2. unfold l2_solve. destruct (l2_pre p); [|congruence]. destruct (l2_reg p); [|congruence]. apply q_core. Qed.
Lemma q_l2r p O : l2_pre p <> None -> l2_reg p <> None -> quiet (l2_regresidual p O).
Proof. intros H1 H2. unfold l2_regresidual. destruct (l2_pre p); [|congruence]. destruct (l2_reg p); [|congruence]. apply quiet_bind; [apply q_resid; discriminate|]. discriminate. Qed.
Lemma q_l2p p : l2_pre p <> None -> l2_reg p <> None -> quiet (l2_posterior p).
Proof. intros H1 H2. unfold l2_posterior. apply quiet_bind; [apply q_l2; auto|]. intros O _. assert (HR := q_l2r p (M O) H1 H2).
  destruct (l2_pre p) eqn:E1; [|congruence]. destruct (l2_reg p) eqn:E2; [|congruence]. cbn zeta. apply quiet_bind; auto. intros rr _. unfold check_sigmas. q. Qed.
Lemma q_vopb f u v : quiet (vop_b f u v).
Proof. unfold vop_b. q. Qed.
Lemma q_ld p : ld_pre p <> None -> ld_reg p <> None -> quiet (ld_solve p).
Proof. intros H1 H2. unfold ld_solve. destruct (ld_pre p); [|congruence]. destruct (ld_reg p); [|congruence]. apply q_core. Qed.
Lemma q_ldr p O : ld_pre p <> None -> ld_reg p <> None -> quiet (ld_regresidual p O).
Proof. intros H1 H2. unfold ld_regresidual. destruct (ld_pre p); [|congruence]. destruct (ld_reg p); [|congruence].
  apply quiet_bind; [apply q_resid; discriminate|]. intros ? _. apply quiet_bind; [apply q_vopb|]. intros ? _. try apply q_vopb; try discriminate. Qed.
Lemma q_ldp p : ld_pre p <> None -> ld_reg p <> None -> quiet (ld_posterior p).
Proof. intros H1 H2. unfold ld_posterior. apply quiet_bind; [apply q_ld; auto|]. intros O _. assert (HR := q_ldr p (M O) H1 H2).
  destruct (ld_pre p) eqn:E1; [|congruence]. destruct (ld_reg p) eqn:E2; [|congruence]. cbn zeta. apply quiet_bind; auto. intros rr _. unfold check_sigmas. q. Qed.
Lemma q_vstack A B : quiet (vstack2 A B). Proof. unfold vstack2. q. Qed.
Lemma q_madd A B : quiet (madd_r A B). Proof. unfold madd_r. q. Qed.
Lemma q_tk1 X mt op D G p : lsx_quiet X -> quiet (tk_solve1 (x_lstsq X) (x_lsolve X) mt op D G p).
Proof. intros (H1 & H2 & H3). unfold tk_solve1. destruct mt.
  - apply quiet_bind; [apply q_vstack|]. intros ? _. apply quiet_bind; [q|]. intros ? _. apply H1.
  - apply quiet_bind; [apply q_madd|]. intros ? _. apply H3. Qed.
Lemma q_tk X p : lsx_quiet X -> tk_data p <> None -> tk_pre p <> None -> tk_reg p <> None -> quiet (tk_solve (x_lstsq X) (x_lsolve X) p).
Proof. intros HX H1 H2 H3. unfold tk_solve. destruct (tk_data p) as [[D Z]|]; [|congruence]. destruct (tk_reg p); [|congruence]. destruct (tk_pre p); [|congruence].
  apply quiet_bind; [apply q_tk1; auto|discriminate]. Qed.
Lemma q_tkr p O : tk_data p <> None -> tk_reg p <> None -> quiet (tk_regresidual p O).
Proof. intros H1 H2. unfold tk_regresidual. destruct (tk_data p) as [[D Z]|]; [|congruence]. destruct (tk_reg p); [|congruence].
  apply quiet_bind; [apply q_resid; discriminate|]. intros ? _. unfold check_ohat, matmul_r, matvec_r, vop_b. q. Qed.
Lemma q_tkp X p : lsx_quiet X -> tk_data p <> None -> tk_pre p <> None -> tk_reg p <> None -> quiet (tk_posterior (x_lstsq X) (x_lsolve X) p).
Proof. intros HX H1 H2 H3. unfold tk_posterior. apply quiet_bind; [apply q_tk; auto|]. intros O _. assert (HR := q_tkr p (M O) H1 H3).
  destruct (tk_data p) as [[D Z]|] eqn:E1; [|congruence]. destruct (tk_reg p) eqn:E2; [|congruence]. cbn zeta. apply quiet_bind; auto. intros rr _. unfold check_sigmas. q. Qed.
Lemma q_td X p : lsx_quiet X -> td_data p <> None -> td_pre p <> None -> td_reg p <> None -> quiet (td_solve (x_lstsq X) (x_lsolve X) p).
Proof. intros HX H1 H2 H3. unfold td_solve. destruct (td_data p) as [[D Z]|]; [|congruence]. destruct (td_reg p); [|congruence]. destruct (td_pre p); [|congruence].
  apply quiet_bind; [|intros; q]. apply quiet_mapM. intros [i G] _. apply quiet_bind; [q|]. intros ? _. apply quiet_bind; [apply q_tk1; auto|]. discriminate. Qed.
Lemma q_tdr p O : td_data p <> None -> td_reg p <> None -> quiet (td_regresidual p O).
Proof. intros H1 H2. unfold td_regresidual. destruct (td_data p) as [[D Z]|]; [|congruence]. destruct (td_reg p); [|congruence].
  apply quiet_bind; [apply q_resid; discriminate|]. intros ? _. unfold check_ohat, matmul_r, matvec_r, vop_b. q. Qed.
Lemma q_tdp X p : lsx_quiet X -> td_data p <> None -> td_pre p <> None -> td_reg p <> None -> quiet (td_posterior (x_lstsq X) (x_lsolve X) p).
Proof. intros HX H1 H2 H3. unfold td_posterior. apply quiet_bind; [apply q_td; auto|]. intros O _. assert (HR := q_tdr p (M O) H1 H3).
  destruct (td_data p) as [[D Z]|] eqn:E1; [|congruence]. destruct (td_reg p) eqn:E2; [|congruence]. cbn zeta. apply quiet_bind; auto. intros rr _. unfold check_sigmas. q. Qed.
Lemma has_pre_runs X s O : lsx_quiet X -> has_pre s -> has_reg s -> Forall does_not_refuse (solver_calls X s O).
Proof. intros HX H HR. destruct s as [p|p|p|p|p|p|p]; cbn in H, HR |- *; repeat (apply Forall_cons; [apply quiet_out|]); try apply Forall_nil.
  - cbn [lsq_solve]. unfold plain_solve. destruct HX as (H1 & _). destruct (pl_data p) as [[D Z]|]; [|congruence]. apply quiet_bind; [apply H1|]. discriminate.
  - apply q_resid; auto.
  - apply q_l2; auto.
  - apply q_resid. unfold odata. destruct (l2_pre p); congruence.
  - apply q_l2r; auto.
  - apply q_l2p; auto.
  - unfold l2_regcond, rmax, rmin, PreModel.vmax, PreModel.vmin. destruct (l2_pre p); [|congruence]. destruct (l2_reg p); [|congruence]. q.
  - apply q_ld; auto.
  - apply q_resid. unfold odata. destruct (ld_pre p); congruence.
  - apply q_ldr; auto.
  - apply q_ldp; auto.
  - unfold ld_regcond, rmax, rmin, PreModel.vmax, PreModel.vmin. destruct (ld_pre p); [|congruence]. destruct (ld_reg p); [|congruence]. q.
  - apply q_tk; tauto.
  - apply q_resid; tauto.
  - apply q_tkr; tauto.
  - apply q_tkp; tauto.
  - apply q_td; tauto.
  - apply q_resid; tauto.
  - apply q_tdr; tauto.
  - apply q_tdp; tauto.
  - cbn [lsq_solve]. unfold ts_solve. destruct (ts_pre p); [|congruence]. cbn zeta. q.
  - apply q_resid. unfold odata. destruct (ts_pre p); congruence.
  - cbn [lsq_solve]. unfold tls_solve. destruct (tl_data p), (tl_sol p); q; destruct H; congruence.
  - apply q_resid; tauto. Qed.
Lemma solver_fitted X s l O : lsx_quiet X -> fit_returned X s l -> has_reg (srun X s l) -> Forall does_not_refuse (solver_calls X (srun X s l) O).
Proof. intros HX H HR. apply has_pre_runs; auto. apply srun_has_pre; auto. Qed.
