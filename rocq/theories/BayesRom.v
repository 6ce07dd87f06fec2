(* BayesRom.v -- Bayesian reduced-order models: fitting, drawing and predicting. *)
From Coq Require Import ZArith Reals Lia Lra.
From Verif Require Import LinAlg MatAlg SolverReg MonoFinal RegselUpdate RomFit.
From Verif Require Export BayesProofs.
#[local] Open Scope nat_scope.

Lemma posterior_has_solver X MX d p : posterior_of X MX d = Ok p -> exists s O, m_solver d = Some s /\ lsq_solve X s = Ok O.
Proof. unfold posterior_of. destruct (m_solver d) as [s|]; [|discriminate]. destruct (lsq_posterior X s) as [[O Ps]|] eqn:E; [|discriminate]. intros _. exists s, O. split; auto. eapply posterior_solve; eauto. Qed.
Theorem trained_posterior X MX d p : lsx_ok X -> inverts MX -> reach X d -> check_trained d = Ok tt -> m_intrusive d = false -> posterior_of X MX d = Ok p ->
  exists s d', m_solver d = Some s /\ is_posterior s p /\ lsq_solve X s = Ok (po_means p) /\ MonoModel.refit X d = (d', Ok tt) /\ carries d (po_means p) d'.
Proof. intros HX HM HR HT Hi HP. destruct (posterior_has_solver X MX d p HP) as (s & O & Es & EO). destruct (trained_ready X d s O HX HR HT Hi Es EO) as (r & m & D & Z & HY).
  destruct (ready_posterior X MX d r m s D Z p HX HM HY HP) as (H1 & H2 & H3 & H4 & H5). destruct (ready_extract X d r m s D Z _ HY H4) as (d' & E' & HC & _).
  exists s, d'. split; auto. split; auto. split; auto. split; auto. unfold MonoModel.refit. rewrite Hi, Es, H2. exact E'. Qed.

Theorem fit_posterior X MX d states lhs inputs d' p : lsx_ok X -> inverts MX -> reach X d -> m_intrusive d = false -> good_arr states -> good_arr lhs -> valid_in inputs ->
  MonoModel.fit X d states lhs inputs = (d', Ok tt) -> posterior_of X MX d' = Ok p ->
  exists s, m_solver d' = Some s /\ is_posterior s p /\ misfit_of_data d' s states lhs inputs p /\ forall s0 w, m_solver d = Some s0 -> penalty s w = penalty s0 w.
Proof. intros HX HM HR Hi G1 G2 G3 EF HP. destruct (fit_ok_fitted X d states lhs inputs d' HX (reach_minv X d HX HR) Hi G1 G2 G3 EF) as (d1 & r & m & k & U & HRl & HSp & _ & HFt & ER & _).
  destruct (refit_inv X d1 d' (Ok tt) r m k _ _ U inputs HX HFt ER) as [_ HQ]. destruct (HQ eq_refl) as (s & O & l & Es & EO & -> & HC & EOm & HO & _). clear HQ.
  destruct (fitted_ready _ _ _ _ _ _ _ _ _ HFt) as (mm & s1 & D & L & HY). assert (s1 = s) as -> by (assert (Hx := rd_s _ _ _ _ _ _ _ HY); congruence).
  assert (HP1 : posterior_of X MX d1 = Ok p) by exact HP. destruct (ready_posterior X MX d1 r mm s D L p HX HM HY HP1) as (H1 & H2 & H3 & H4 & H5).
  assert (EOp : O = po_means p) by congruence. exists s. cbn [with_ops m_solver]. split; auto. split; auto. split; [|intros s0 w Es0; exact (HSp s0 s w Es0 Es)].
  destruct (ft_solver _ _ _ _ _ _ _ _ _ HFt) as (s2 & L2 & Es2 & _ & HC2 & HL2 & HLv). assert (s2 = s) as -> by congruence.
  destruct (candidate_residual _ _ _ _ _ _ _ _ _ l s L2 HFt HC Es HC2 HLv) as (HOm & f & Hf & Hval).
  destruct (ft_dims _ _ _ _ _ _ _ _ _ HFt) as (Hr & Hm & Hk). destruct (ft_data _ _ _ _ _ _ _ _ _ HFt) as (HQ & HZ & HU).
  set (D2 := hstack (map (dblock (atleast_2d states) U (m_ops d1)) (m_infer d1))) in *.
  assert (HD2 : is_mat k (lsumn (map (wd r m (m_ops d1)) (m_infer d1))) D2) by (apply is_mat_hstack; [apply (dblocks r m k _ U (m_ops d1) (m_infer d1) Hr Hm HQ HU (fun a => sinv_lt d1 a (ft_inv _ _ _ _ _ _ _ _ _ HFt)))|destruct (m_infer d1) eqn:Ei; [exfalso; exact (ft_ne _ _ _ _ _ _ _ _ _ HFt Ei)|cbn; congruence]]).
  exists r, k, D2, L2. cbn [with_ops m_r]. split; [apply (ft_r _ _ _ _ _ _ _ _ _ HFt)|]. split; auto. split; auto. split; auto. split.
  { destruct HC2 as [_ HC2]. destruct s; cbn [solver_data] in *; tauto. } split; [eapply is_mat_nrows; eauto|]. split; [eapply is_mat_nrows; eauto|]. split.
  { rewrite (candidate_opmatrix _ _ _ _ _ _ _ _ _ l HFt HC). congruence. }
  intros i Hii. exists f. split; auto. rewrite (ncols_is_mat k _ D2 HD2 Hk). rewrite <- EOp, <- EOm. symmetry. apply Hval. auto. Qed.

(* ---- BayesianROM ---- *)
Theorem bayes_fit_ok LX MX b T ft fb b' : bayes_fit LX MX b T ft fb = (b', Ok tt) ->
  rom_fit LX (br_rom b) T ft fb = (br_rom b', Ok tt) /\
  match br_post b' with Some p => posterior_of LX MX (rm_model (br_rom b')) = Ok p | None => posterior_of LX MX (rm_model (br_rom b')) = Err LinAlgError end.
Proof. unfold bayes_fit. destruct (rom_fit LX (br_rom b) T ft fb) as [r [[]|e]]; [|discriminate]. unfold initialize. destruct (posterior_of LX MX (rm_model r)) as [p|e] eqn:E.
  - intros [= <-]. cbn. auto.
  - destruct e; try discriminate. intros [= <-]. cbn. auto. Qed.
Theorem bayes_fit_err LX MX b T ft fb b' e : bayes_fit LX MX b T ft fb = (b', Err e) ->
  br_post b' = br_post b /\
  (rom_fit LX (br_rom b) T ft fb = (br_rom b', Err e) \/
   rom_fit LX (br_rom b) T ft fb = (br_rom b', Ok tt) /\ posterior_of LX MX (rm_model (br_rom b')) = Err e /\ e <> LinAlgError).
Proof. unfold bayes_fit. destruct (rom_fit LX (br_rom b) T ft fb) as [r [[]|e1]]; [|intros [= <- <-]; cbn; auto]. unfold initialize. destruct (posterior_of LX MX (rm_model r)) as [p|e1] eqn:E; [discriminate|].
  assert (K : (match e1 with LinAlgError => Ok None | _ => Err e1 end = @Err (option post) e1 /\ e1 <> LinAlgError) \/ e1 = LinAlgError) by (destruct e1; auto; left; split; congruence).
  destruct K as [(K & Hne)| ->]; [|discriminate]. destruct (match e1 with LinAlgError => Ok None | _ => Err e1 end) eqn:E2; [discriminate|]. injection K as ->. intros [= <- <-]. cbn. auto. Qed.

Section Rom.
  Context {G : Type}.
  Variable normal : vec -> mat -> G -> G * vec.
  Hypothesis HN : keeps_size normal.
  Variables (X : lsx) (MX : mvn).
  Hypotheses (HX : lsx_ok X) (HM : inverts MX).

  (* after any number of draws, the next one works and forgets the earlier ones *)
  Theorem draws_ok d p g s1 : reach X d -> check_trained d = Ok tt -> m_intrusive d = false -> posterior_of X MX d = Ok p -> after_draws normal (Build_bstate d (Some p) g) s1 ->
    exists A g' d', draw normal s1 = (Build_bstate d' (Some p) g', Ok tt) /\ samples normal p (bs_gen s1) A g' /\ carries d A d'.
  Proof. intros HR HT Hi HP Ha. destruct (posterior_has_solver X MX d p HP) as (s & O & Es & EO). destruct (trained_ready X d s O HX HR HT Hi Es EO) as (r & m & D & Z & HY).
    destruct (after_ok normal HN X MX d r m s D Z p HX HM HY HP g s1 Ha) as (K1 & K2). destruct s1 as [d1 p1 g1]. cbn [bs_model bs_post bs_gen] in *. subst p1.
    destruct (draw_ok normal HN X MX d r m s D Z p HX HM HY HP d1 g1 K1) as (A & g' & d2 & E & HS & HC & _). exists A, g', d2. auto. Qed.
  Theorem draws_forget d p g h s1 s2 : reach X d -> check_trained d = Ok tt -> m_intrusive d = false -> posterior_of X MX d = Ok p ->
    after_draws normal (Build_bstate d (Some p) g) s1 -> after_draws normal (Build_bstate d (Some p) h) s2 -> bs_gen s1 = bs_gen s2 -> draw normal s1 = draw normal s2.
  Proof. intros HR HT Hi HP Ha Hb Eg. destruct (posterior_has_solver X MX d p HP) as (s & O & Es & EO). destruct (trained_ready X d s O HX HR HT Hi Es EO) as (r & m & D & Z & HY).
    destruct (after_ok normal HN X MX d r m s D Z p HX HM HY HP g s1 Ha) as (K1 & K2). destruct (after_ok normal HN X MX d r m s D Z p HX HM HY HP h s2 Hb) as (K3 & K4).
    destruct s1 as [d1 p1 g1], s2 as [d2 p2 g2]. cbn [bs_model bs_post bs_gen] in *. subst. apply (akin_same normal HN X MX d r m s D Z p HX HM HY HP); auto. Qed.
  (* predict draws once and predicts with what it drew *)
  Theorem predict_draws d p g s1 pred b q0 : reach X d -> check_trained d = Ok tt -> m_intrusive d = false -> posterior_of X MX d = Ok p ->
    after_draws normal (Build_bstate d (Some p) g) s1 -> rm_model (br_rom b) = bs_model s1 -> br_post b = bs_post s1 ->
    exists A g' b', bayes_predict normal pred b (bs_gen s1) q0 = (b', g', rom_predict_with (pred (rm_model (br_rom b'))) (rm_parts (br_rom b)) q0) /\
      samples normal p (bs_gen s1) A g' /\ carries d A (rm_model (br_rom b')) /\ br_post b' = Some p /\ rm_parts (br_rom b') = rm_parts (br_rom b) /\ rm_ddt (br_rom b') = rm_ddt (br_rom b).
  Proof. intros HR HT Hi HP Ha Eb Ep. destruct (draws_ok d p g s1 HR HT Hi HP Ha) as (A & g' & d' & E & HS & HC). unfold bayes_predict, draw_operators, bstate_of. rewrite Eb, Ep. destruct s1 as [d1 p1 g1]. cbn [bs_model bs_post bs_gen] in *. rewrite E.
    exists A, g', (brom_of b (Build_bstate d' (Some p) g')). split; [reflexivity|]. cbn. auto 8. Qed.
End Rom.

(* ---- what raises ---- *)
Theorem no_posterior {G} (normal : vec -> mat -> G -> G * vec) pred b g q0 : br_post b = None ->
  draw_operators normal b g = (b, g, Err AttributeError) /\ bayes_predict normal pred b g q0 = (b, g, Err AttributeError).
Proof. intros E. assert (K : draw_operators normal b g = (b, g, Err AttributeError)).
  { unfold draw_operators, bstate_of, draw. cbn. rewrite E. cbn. unfold brom_of, rom_with. cbn. destruct b as [[P Dd d] q]. cbn in *. subst. reflexivity. }
  split; auto. unfold bayes_predict. rewrite K. auto. Qed.
Theorem other_solvers d lf t b D : mk_brom d lf t b D = Err AttributeError <-> forall s, m_solver d = Some s -> match s with LPlain _ | LTsvd _ | LTls _ => True | _ => False end.
Proof. unfold mk_brom. destruct (m_solver d) as [s|]; cbn [bayesian_solver].
  - destruct s; (split; [try discriminate; intros _ s' [= <-]; exact I|intros H; specialize (H _ eq_refl); try destruct H; auto]).
  - split; auto. intros _ s; discriminate. Qed.
(* a posterior that was loaded from a file: nothing can be drawn *)
Theorem loaded_cannot_draw {G} (normal : vec -> mat -> G -> G * vec) (X : mvn) nd p d g : post_load X nd = Ok p -> m_infer d <> [] ->
  exists g' e, draw normal (Build_bstate d (Some p) g) = (Build_bstate d (Some p) g', Err e) /\ (e = IndexError \/ e = TypeError).
Proof. intros E Hne. assert (Hp : po_prec p = false). { unfold post_load in E. repeat match type of E with context [bind ?x _] => destruct x; [cbn [bind] in E|discriminate] end.
    unfold post_init in E. destruct (negb _); [discriminate|]. destruct (mapM _ _); [|discriminate]. cbn [bind] in E. destruct (_ =? 0); [discriminate|]. injection E as <-. reflexivity. }
  unfold draw, rvs. cbn [bs_post bs_gen bs_model]. destruct (draw_rows normal (combine (po_means p) (po_covs p)) g) as [g' xs]. rewrite Hp. exists g'.
  destruct (existsb _ (po_means p)); [exists IndexError; auto|]. cbn [extract_drawn]. destruct (m_infer d); [congruence|]. destruct (same_sizes (po_means p)); [exists IndexError|exists TypeError]; auto. Qed.
