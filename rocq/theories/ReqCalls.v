(* ReqCalls.v -- C54 for operators and models. *)
From Coq Require Import ZArith Lia.
From Verif Require Import MonoFinal MonoStmts EntriesProofs.
From Verif Require Export ReqPre ParamModel.
#[local] Open Scope nat_scope.

(* ---- operators ------------------------------------------------------------------------------------------------------------- *)
Lemma step_apply_none junk c s q u : oentries s = None -> snd (step junk c s (Apply q u)) = AArr (Err AttributeError).
Proof. intros H. cbn. unfold obj_apply. rewrite H. auto. Qed.
Lemma step_jac_none junk c s q u : oentries s = None -> snd (step junk c s (Jacobian q u)) = AJac (Err AttributeError).
Proof. intros H. cbn. unfold obj_jacobian. rewrite H. auto. Qed.
(* what a step does to the entries *)
Lemma step_entries_op junk c s k : 
  match k with
  | SetEntries _ => match snd (step junk c s k) with AUnit (Ok _) => oentries (fst (step junk c s k)) <> None | _ => oentries (fst (step junk c s k)) = oentries s end
  | DelEntries => oentries (fst (step junk c s k)) = None
  | _ => oentries (fst (step junk c s k)) = oentries s
  end.
Proof. destruct k as [x| |q u|q u]; cbn; auto.
  - unfold obj_set. destruct (set_entries c x) as [[o|]|e]; cbn; auto. destruct o; cbn; try discriminate. destruct (ckron_indices d _); cbn; auto. discriminate.
  - unfold obj_jacobian. destruct (oentries s) as [[| |d H| |]|] eqn:E; cbn; auto. destruct (oprejac s); cbn; auto. destruct (expand d junk H); cbn; auto. Qed.
Lemma run_cons junk c s k ks : run junk c s (k :: ks) = (fst (run junk c (fst (step junk c s k)) ks), snd (step junk c s k) :: snd (run junk c (fst (step junk c s k)) ks)).
Proof. cbn. destruct (step junk c s k) as [s1 a]. cbn. destruct (run junk c s1 ks). auto. Qed.
Lemma run_none junk c ks : forall s, (oentries s = None \/ exists j, deletes ks j) ->
  (forall i, set_returned ks (snd (run junk c s ks)) i -> exists j, i < j /\ deletes ks j) -> oentries (fst (run junk c s ks)) = None.
Proof. induction ks as [|k ks IH]; intros s H HD.
  - cbn. destruct H as [H|[j H]]; auto. destruct j; discriminate.
  - rewrite run_cons in *. cbn [fst snd] in *. apply IH.
    + assert (HE := step_entries_op junk c s k). destruct H as [H|[[|j] H]].
      * destruct k as [x| |q u|q u]; [|left; auto|left; congruence|left; congruence]. destruct (snd (step junk c s (SetEntries x))) as [[[]|e]|y|y] eqn:ES; [|left; congruence|left; congruence|left; congruence].
        right. destruct (HD 0) as (j & Hj & Hd). { exists x. split; [reflexivity|]. reflexivity. } destruct j as [|j]; [lia|]. exists j. exact Hd.
      * injection H as ->. left. auto.
      * right. exists j. exact H.
    + intros i (x & H1 & H2). destruct (HD (S i)) as (j & Hj & Hd). { exists x. auto. } destruct j as [|j]; [lia|]. exists j. split; [lia|exact Hd]. Qed.
Lemma run_some junk c ks : forall s, (oentries s <> None /\ (forall j, ~ deletes ks j)) \/ (exists i, set_returned ks (snd (run junk c s ks)) i /\ forall j, i < j -> ~ deletes ks j) ->
  oentries (fst (run junk c s ks)) <> None.
Proof. induction ks as [|k ks IH]; intros s H.
  - cbn. destruct H as [[H _]|(i & (x & H & _) & _)]; auto. destruct i; discriminate.
  - rewrite run_cons in *. cbn [fst snd] in *. apply IH. assert (HE := step_entries_op junk c s k). destruct H as [[H HD]|([|i] & (x & H1 & H2) & HD)].
    + left. split; [|intros j Hj; apply (HD (S j)); exact Hj]. destruct k as [x| |q u|q u]; try congruence.
      * destruct (snd (step junk c s (SetEntries x))) as [[|]|y|y]; congruence.
      * exfalso. apply (HD 0). reflexivity.
    + left. injection H1 as ->. cbn [nth_error] in H2. assert (H3 : snd (step junk c s (SetEntries x)) = AUnit (Ok tt)) by congruence. rewrite H3 in HE. split; auto. intros j Hj. apply (HD (S j)); [lia|exact Hj].
    + right. exists i. split; [exists x; auto|]. intros j Hj Hd. apply (HD (S j)); [lia|exact Hd]. Qed.
Lemma q_masked q m : quiet (maskprod q m). Proof. unfold maskprod. q. Qed.
Lemma q_maskedr q m : quiet (maskprod_rows q m). Proof. unfold maskprod_rows. q. Qed.
Lemma q_matdot A x : quiet (matdot A x). Proof. unfold matdot, matvec_r, matmul_r. q. Qed.
Lemma quiet_matchres {A B} (x : res A) (f : A -> res B) : quiet x -> (forall a, quiet (f a)) -> quiet (match x with Err e => Err e | Ok a => f a end).
Proof. unfold quiet. destruct x; auto. intros H _ E. apply H. congruence. Qed.
Lemma q_fill n z rows : quiet (fill_rows n z rows).
Proof. revert rows. induction n as [|n IH]; intros [|t rows]; cbn; try discriminate; apply quiet_matchres; auto; discriminate. Qed.
Lemma q_ckron d r : quiet (ckron_indices d r). Proof. destruct d; apply q_fill. Qed.
Lemma q_newton3 n : forall b r, quiet (newton3 n b r).
Proof. induction n as [|n IH]; intros b r; cbn; [discriminate|]. destruct (Rlt_dec _ _); [discriminate|apply IH]. Qed.
Lemma q_newton4 n : forall b r, quiet (newton4 n b r).
Proof. induction n as [|n IH]; intros b r; cbn; [discriminate|]. destruct (Rlt_dec _ _); [discriminate|apply IH]. Qed.
Lemma q_kr A B : quiet (khatri_rao A B). Proof. unfold khatri_rao. q. Qed.
Lemma q_mulb u v : quiet (vmul_b u v). Proof. unfold vmul_b. q. Qed.
Lemma q_arrmul a b : quiet (arr_mul a b). Proof. unfold arr_mul. q; try apply q_mulb. Qed.
Lemma q_apply o q u : quiet (apply o q u).
Proof. unfold apply. destruct o.
  - q.
  - destruct (nrows A =? 1); [discriminate|apply q_matdot].
  - destruct (nrows H =? 1); [discriminate|]. apply quiet_matchres; [apply q_ckron|]. intros m. destruct q; apply quiet_matchres; auto using q_masked, q_maskedr, q_matdot.
  - destruct u as [v|U]; [|apply q_matdot]. destruct (ncols B =? 1); [|apply q_matdot]. destruct (nrows B =? 1); [discriminate|]. destruct (1 <? length v); [discriminate|].
    assert (H := q_mulb (map (fun row => nth 0 row 0%R) B) v). destruct (vmul_b _ v); [discriminate|]. unfold quiet in *. congruence.
  - cbn zeta. destruct (ncols N =? 1); [apply q_arrmul|]. destruct (negb _).
    + destruct q; [|discriminate]. destruct u; [apply q_matdot|discriminate].
    + apply quiet_matchres; [apply q_kr|intros; apply q_matdot]. Qed.
Lemma q_expand d junk H : quiet (expand d junk H).
Proof. destruct d; cbn [expand].
  - unfold expand_entries2. cbn zeta. destruct (negb _); discriminate.
  - unfold expand_entries3. cbn zeta. apply quiet_matchres; [apply q_newton3|]. intros z. destruct (negb _); discriminate.
  - unfold expand_entries4. cbn zeta. apply quiet_matchres; [apply q_newton4|]. intros z. destruct (negb _); discriminate. Qed.
Lemma q_jac junk o q u : quiet (jacobian junk o q u).
Proof. unfold jacobian. destruct o; cbn zeta; try discriminate.
  - apply quiet_matchres; [apply q_expand|]. intros G. destruct (negb _); discriminate.
  - destruct (negb _); discriminate. Qed.
Lemma op_unset junk c ks s answers : run junk c cleared ks = (s, answers) -> (forall i, set_returned ks answers i -> exists j, i < j /\ deletes ks j) ->
  forall q u q1 u1, snd (step junk c s (Apply q u)) = AArr (Err AttributeError) /\ snd (step junk c s (Jacobian q1 u1)) = AJac (Err AttributeError).
Proof. intros E H q u q1 u1. assert (HN : oentries s = None).
  { replace s with (fst (run junk c cleared ks)) by (rewrite E; auto). apply run_none; [left; auto|]. rewrite E. auto. }
  split; [apply step_apply_none|apply step_jac_none]; auto. Qed.
Lemma op_set_runs junk c ks s answers : run junk c cleared ks = (s, answers) -> (exists i, set_returned ks answers i /\ forall j, i < j -> ~ deletes ks j) ->
  forall q u q1 u1, snd (step junk c s (Apply q u)) <> AArr (Err AttributeError) /\ snd (step junk c s (Jacobian q1 u1)) <> AJac (Err AttributeError).
Proof. intros E H q u q1 u1. assert (HN : oentries s <> None).
  { replace s with (fst (run junk c cleared ks)) by (rewrite E; auto). apply run_some. right. rewrite E. auto. }
  assert (HH := run_refines junk c (ks ++ [Apply q u; Jacobian q1 u1]) cleared None). cbn. split; intros K.
  - injection K as K. unfold obj_apply in K. destruct (oentries s) as [o|]; [|congruence]. destruct o as [| |d H0| |]; try (apply (q_apply _ _ _ K)).
    destruct (nrows H0 =? 1); [apply (q_apply _ _ _ K)|]. destruct (omask s) as [m|]; [|discriminate]. revert K. destruct q as [v|Q]; apply quiet_matchres; auto using q_masked, q_maskedr, q_matdot.
  - destruct (obj_jacobian junk s q1 u1) as [s' a] eqn:EJ. cbn in K. injection K as ->. unfold obj_jacobian in EJ. destruct (oentries s) as [o|]; [|congruence].
    assert (HJ := fun junk => q_jac junk o q1 u1). destruct o as [| |d H0| |]; try (injection EJ as _ EJ; apply (HJ junk); exact EJ).
    unfold jac_from in EJ. destruct (oprejac s).
    + injection EJ as _ EJ. destruct (negb _); discriminate.
    + assert (HX := q_expand d junk H0). destruct (expand d junk H0); injection EJ as _ EJ; [destruct (negb _); discriminate|]. apply HX. congruence. Qed.

(* parametric operators *)
Lemma param_unset : (forall a mu, a_entries a = None -> snd (aff_evaluate a mu) = Err AttributeError) /\
  (forall solve junk a Vr Wr, a_entries a = None -> aff_galerkin solve junk a Vr Wr = Err AttributeError) /\
  (forall t mu, i_entries t = None -> i_evaluate t mu = Err AttributeError) /\
  (forall c coeffs nt a, aff_init c coeffs nt = Ok a -> a_entries a = None) /\ (forall c ic, i_entries (i_new c ic) = None).
Proof. split; [|split; [|split; [|split]]].
  - intros a mu H. unfold aff_evaluate. rewrite H. auto.
  - intros solve junk a Vr Wr H. unfold aff_galerkin. rewrite H. auto.
  - intros t mu H. unfold i_evaluate. rewrite H. auto.
  - intros c coeffs nt a. unfold aff_init. destruct (match nt with Some 0 => true | _ => false end); [discriminate|]. cbn zeta. destruct coeffs as [f|fs|[|p]|]; try discriminate;
      try (intros [= <-]; reflexivity). destruct nt; [|discriminate]. intros [= <-]; reflexivity.
  - reflexivity. Qed.
Lemma q_compress d E : quiet (compress d E).
Proof. unfold compress, compress_entries2, compress_entries3, compress_entries4, compress_entries. destruct d; cbn zeta; destruct (negb _); discriminate. Qed.
Lemma q_construct c E : quiet (construct c E).
Proof. unfold construct, rebuild_same. destruct (proto c) as [| |d H| |]; [q|q| |q|q]. cbn zeta. destruct (_ =? _).
  - apply (quiet_matchres (compress d E) (fun H => Ok (OPoly d H))); [apply q_compress|discriminate].
  - q. Qed.
Lemma aff_set_runs a Es a' mu : aff_set a Es = Ok a' -> snd (aff_evaluate a' mu) <> Err AttributeError.
Proof. unfold aff_set. destruct (aff_terms _ _ _); [|discriminate]. cbn. intros [= <-]. unfold aff_evaluate. cbn. destruct (negb _); [discriminate|].
  apply quiet_bind; [|intros; apply q_construct]. unfold thetas. cbn. q. Qed.

(* ---- models ------------------------------------------------------------------------------------------------------------------ *)
Lemma lacks_untrained d : lacks_entries d -> check_trained d = Err AttributeError.
Proof. intros (o & HI & HN). unfold check_trained. destruct (m_r d); auto. destruct (m_hasin d && _); auto.
  replace (existsb uncal (m_ops d)) with true; auto. symmetry. apply existsb_exists. exists o. split; auto. unfold uncal. rewrite HN. auto. Qed.
Lemma sum_apply_lacks l : (exists o, In o l /\ mo_ent o = None) -> forall q u out, never (sum_apply l q u out).
Proof. induction l as [|o l IH]; intros (o' & HI & HN) q u out; [contradiction|]. cbn. destruct HI as [->|HI].
  - unfold op_apply. rewrite HN. discriminate.
  - apply never_bind. right. intros y. apply never_bind. right. intros w. apply IH. eauto. Qed.
Lemma sum_jac_lacks junk l : (exists o, In o l /\ mo_ent o = None) -> forall q u out, never (sum_jac junk l q u out).
Proof. induction l as [|o l IH]; intros (o' & HI & HN) q u out; [contradiction|]. cbn. destruct HI as [->|HI].
  - unfold op_jacobian. rewrite HN. discriminate.
  - apply never_bind. right. intros [|A]; [apply IH; eauto|]. destruct (shape_is _ _ A); [apply IH; eauto|discriminate]. Qed.
Lemma never_out {A} (x : res A) : never x -> exists e, outcome x = Err e.
Proof. unfold never. destruct x as [a|e]; cbn; [intros H; exfalso; apply (H a); auto|eauto]. Qed.
Lemma model_lacks d : lacks_entries d ->
  (forall q0 n inputs, Forall refuses (model_calls d q0 n inputs)) /\
  (forall junk q u q1 u1, Forall (fun x => exists e, x = Err e) (model_evals junk d q u q1 u1)).
Proof. intros H. split.
  - intros q0 n inputs. unfold model_calls, refuses, predict, operator_matrix. rewrite (lacks_untrained d H). repeat constructor.
  - intros junk q u q1 u1. unfold model_evals. apply Forall_cons; [|apply Forall_cons; [|constructor]].
    + apply never_out. apply sum_apply_lacks. exact H.
    + unfold model_jacobian. destruct (m_r d); [|exists TypeError; auto]. apply never_out. apply sum_jac_lacks. exact H. Qed.
Lemma q_iadd a b : quiet (iadd a b). Proof. unfold iadd. q. Qed.
Lemma q_op_apply o q u : mo_ent o <> None -> quiet (op_apply o q u).
Proof. intros H. unfold op_apply. destruct (mo_ent o); [|congruence]. destruct u; [apply q_apply|]. destruct (takes_input o); [discriminate|apply q_apply]. Qed.
Lemma q_sum_apply l : (forall o, In o l -> mo_ent o <> None) -> forall q u out, quiet (sum_apply l q u out).
Proof. induction l as [|o l IH]; intros H q u out; cbn; [discriminate|]. apply quiet_bind; [apply q_op_apply; apply H; left; auto|]. intros y _.
  apply quiet_bind; [apply q_iadd|]. intros w _. apply IH. intros; apply H; right; auto. Qed.
Lemma q_sum_jac junk l : (forall o, In o l -> mo_ent o <> None) -> forall q u out, quiet (sum_jac junk l q u out).
Proof. induction l as [|o l IH]; intros H q u out; cbn; [discriminate|]. apply quiet_bind.
  - unfold op_jacobian. destruct (mo_ent o) as [e|] eqn:E; [|exfalso; apply (H o); [left|]; auto]. destruct u; [apply q_jac|]. destruct e; try apply q_jac. discriminate.
  - intros [|A] _; [apply IH; intros; apply H; right; auto|]. destruct (shape_is _ _ A); [apply IH; intros; apply H; right; auto|discriminate]. Qed.
Lemma q_iterate f n : (forall q j, quiet (f q j)) -> forall j q, quiet (iterate f n j q).
Proof. intros Hf. induction n as [|n IH]; intros j q; cbn; [discriminate|]. apply quiet_bind; auto. intros q' _. apply quiet_bind; auto. discriminate. Qed.
Lemma q_nth_op i l : quiet (nth_op i l). Proof. unfold nth_op. q. Qed.
Lemma model_complete X d : lsx_ok X -> reach X d -> ~ lacks_entries d ->
  (forall q0 n inputs, Forall does_not_refuse (model_calls d q0 n inputs)) /\
  (forall junk q u q1 u1, Forall does_not_refuse (model_evals junk d q u q1 u1)).
Proof. intros HX HR HL. assert (HE : forall o, In o (m_ops d) -> mo_ent o <> None). { intros o Ho HN. apply HL. exists o. auto. }
  assert (HT : check_trained d = Ok tt) by (apply (C32_trained_check X); auto). split.
  - intros q0 n inputs. unfold model_calls. repeat (apply Forall_cons; [apply quiet_out|]); [| |constructor].
    + unfold predict. rewrite HT. cbn [bind]. destruct q0 as [q|]; [|discriminate]. destruct (m_r d) as [r|]; [|discriminate].
      destruct (negb _); [discriminate|]. destruct (m_hasin d && _); [discriminate|]. destruct (n <? 1)%Z; [discriminate|]. cbn zeta.
      assert (HV : forall q u, quiet (rhs_vec d q u)). { intros q' u. unfold rhs_vec, rhs. apply quiet_bind; [apply q_sum_apply; auto|]. intros [v|A] _; discriminate. }
      apply quiet_bind; [|discriminate]. destruct (m_hasin d); [|apply q_iterate; auto]. destruct inputs as [[u|]|]; try discriminate. destruct (_ || _); [discriminate|]. apply q_iterate; auto.
    + unfold operator_matrix. rewrite HT. cbn [bind]. apply quiet_bind; [|intros [|e es] _; discriminate]. apply quiet_mapM. intros i _. unfold nth_op.
      destruct (nth_error (m_ops d) i) as [o|] eqn:EO; cbn [bind]; [|discriminate]. apply nth_error_In in EO. apply HE in EO. destruct (mo_ent o); [discriminate|congruence].
  - intros junk q u q1 u1. unfold model_evals. repeat (apply Forall_cons; [apply quiet_out|]); [| |constructor].
    + apply q_sum_apply; auto.
    + unfold model_jacobian. destruct (m_r d); [|discriminate]. apply q_sum_jac; auto. Qed.
Lemma model_fitted X d states lhs inputs d' : lsx_ok X -> reach X d -> m_intrusive d = false -> good_arr states -> good_arr lhs -> valid_in inputs ->
  MonoModel.fit X d states lhs inputs = (d', Ok tt) -> ~ lacks_entries d'.
Proof. intros HX HR HI G1 G2 G3 E. destruct (m_solver d) as [s|] eqn:ES.
  - destruct (fit_best X d states lhs inputs d' s HX HR HI G1 G2 G3 E ES) as ((r & m & k & O & _ & _ & _ & _ & _ & HO & _) & _).
    intros HL. apply lacks_untrained in HL. unfold operator_matrix in HO. rewrite HL in HO. discriminate.
  - exfalso. revert E. unfold MonoModel.fit. destruct (m_frozen d) eqn:EF; [discriminate|]. rewrite HI. unfold fit_solver.
    destruct (process_fit d states lhs inputs) as [d1 x1] eqn:EP.
    destruct (process_fit_inv _ _ _ _ _ _ (mi_s _ _ (reach_minv X d HX HR)) EF EP) as ((_ & (_ & _ & _ & _ & _ & _ & Es & _) & _) & _). rewrite ES in Es.
    destruct x1 as [[[Q L] U]|e]; cbn [seqm]; [|discriminate]. destruct (MonoModel.assemble d1 Q U); cbn [seqm]; [|discriminate]. rewrite Es. discriminate. Qed.
