(* BayesProofs.v -- posteriors and sampled operators. *)
From Coq Require Import ZArith Reals Lia Lra.
From Verif Require Import LinAlg MatAlg SolverReg MonoFinal RegselUpdate.
From Verif Require Export SpecBayes.
#[local] Open Scope nat_scope.

Lemma posterior_solve X s O Ps : lsq_posterior X s = Ok (O, Ps) -> lsq_solve X s = Ok O.
Proof. destruct s as [p|p|p|p|p|p|p]; cbn [lsq_posterior lsq_solve]; try discriminate; intros E.
  - unfold l2_posterior in E. destruct (l2_solve p) as [A|]; [|discriminate]. cbn [bind] in E. destruct (l2_pre p), (l2_reg p); try discriminate.
    destruct (l2_regresidual p (M A)); [|discriminate]. cbn [bind] in E. destruct (check_sigmas _); [|discriminate]. cbn [bind] in E. congruence.
  - unfold ld_posterior in E. destruct (ld_solve p) as [A|]; [|discriminate]. cbn [bind] in E. destruct (ld_pre p), (ld_reg p); try discriminate.
    destruct (ld_regresidual p (M A)); [|discriminate]. cbn [bind] in E. destruct (check_sigmas _); [|discriminate]. cbn [bind] in E. congruence.
  - unfold tk_posterior in E. destruct (tk_solve _ _ p) as [A|]; [|discriminate]. cbn [bind] in E. destruct (tk_data p) as [[D Z]|], (tk_reg p); try discriminate.
    destruct (tk_regresidual p (M A)); [|discriminate]. cbn [bind] in E. destruct (check_sigmas _); [|discriminate]. cbn [bind] in E. congruence.
  - unfold td_posterior in E. destruct (td_solve _ _ p) as [A|]; [|discriminate]. cbn [bind] in E. destruct (td_data p) as [[D Z]|], (td_reg p); try discriminate.
    destruct (td_regresidual p (M A)); [|discriminate]. cbn [bind] in E. destruct (check_sigmas _); [|discriminate]. cbn [bind] in E. congruence. Qed.

Lemma posterior_clean X s D Z O Ps : lsx_ok X -> clean X s D Z -> lsq_posterior X s = Ok (O, Ps) ->
  solver_data s = Some (D, Z) /\ exists pen, penalty s (ncols D) = Some pen /\ length Ps = nrows Z /\
  forall i, i < nrows Z -> let v := ((misfit (nrows D) (ncols D) D Z O i + pen O i) / INR (nrows D))%R in
    (0 < v)%R /\ precision (nrows D) (ncols D) D (gram s (ncols D) i) v (nth i Ps []).
Proof. intros (XL & XS & XV) [_ H] E. assert (ES := posterior_solve _ _ _ _ E). destruct s as [p|p|p|p|p|p|p]; cbn [lsq_posterior lsq_solve clean solver_data] in *; try discriminate.
  - destruct H as [H1 H2]. split; auto. destruct (l2_reg p) as [lam|] eqn:EG; [|unfold l2_solve in ES; rewrite EG in ES; destruct (l2_pre p); discriminate].
    destruct (l2_posterior_ok _ _ _ _ _ _ _ XS H1 H2 EG E) as (_ & HL & HP). exists (ridge (ncols D) lam). cbn [penalty]. rewrite EG. split; auto. split; auto. intros i Hi. destruct (HP i Hi) as [P1 P2]. split; auto. unfold gram. rewrite EG. exact P2.
  - destruct H as (H1 & H2 & H3). split; auto. destruct (ld_reg p) as [lam|] eqn:EG; [|unfold ld_solve in ES; rewrite EG in ES; destruct (ld_pre p); discriminate].
    destruct (ld_posterior_ok _ _ _ _ _ _ _ XS H1 H2 EG (H3 _ eq_refl) E) as (_ & HL & HP). eexists. cbn [penalty]. rewrite EG. split; [reflexivity|]. split; auto. intros i Hi. destruct (HP i Hi) as [P1 P2]. split; auto. unfold gram. rewrite EG. exact P2.
  - destruct H as (H1 & H2 & H3). split; auto. destruct (tk_reg p) as [lam|] eqn:EG; [|unfold tk_solve in ES; rewrite EG, H2 in ES; discriminate].
    destruct (tk_posterior_ok _ _ _ _ _ _ _ _ (XL _) XV H1 H2 EG (H3 _ eq_refl) E) as (_ & HL & HP). eexists. cbn [penalty]. rewrite EG. split; [reflexivity|]. split; auto. intros i Hi. destruct (HP i Hi) as [P1 P2]. split; auto. unfold gram. rewrite EG. exact P2.
  - destruct H as (H1 & H2 & H3). split; auto. destruct (td_reg p) as [lam|] eqn:EG; [|unfold td_solve in ES; rewrite EG, H2 in ES; discriminate].
    destruct (H3 _ eq_refl) as [H4 H5]. destruct (td_posterior_ok _ _ _ _ _ _ _ _ (XL _) XV H1 H2 EG H4 H5 E) as (_ & HL & HP). eexists. cbn [penalty]. rewrite EG. split; [reflexivity|]. split; auto. intros i Hi. destruct (HP i Hi) as [P1 P2]. split; auto. unfold gram. rewrite EG. exact P2. Qed.

Lemma post_init_inv MX O Ps p : post_init MX O Ps false = Ok p ->
  po_means p = O /\ po_prec p = true /\ length Ps = length O /\ length (po_covs p) = length O /\ 0 < length O /\
  forall i, i < length O -> x_cov MX (nth i Ps []) = Ok (nth i (po_covs p) []).
Proof. unfold post_init. destruct (Nat.eqb_spec (length O) (length Ps)) as [HL|]; [|discriminate]. cbn [negb]. destruct (mapM _ (combine O Ps)) as [cs|] eqn:EM; [|discriminate]. cbn [bind].
  destruct (Nat.eqb_spec (length O) 0) as [|H0]; [discriminate|]. intros [= <-]. cbn. split; auto. split; auto. split; auto.
  apply AffProofs.mapM_Forall2 in EM. assert (HF := PreProofs.F2_length _ _ _ EM). rewrite combine_length in HF. split; [lia|]. split; [lia|]. intros i Hi.
  assert (HN : forall (l : list (vec * mat)) cs, Forall2 (fun mc c => (let '(v, C) := mc in raise_if negb (square_of v C) with ValueError;; x_cov MX C) = Ok c) l cs -> forall i, i < length l ->
    x_cov MX (snd (nth i l ([], []))) = Ok (nth i cs [])).
  { clear. induction 1 as [|[v C] c l cs H HF IH]; intros [|i] Hi; cbn in *; try lia; [|apply IH; lia]. destruct (square_of v C); [auto|discriminate]. }
  specialize (HN _ _ EM i). rewrite combine_length, combine_nth in HN by auto. apply HN. lia. Qed.

(* ---- models whose solver has data ---- *)
Record ready (X : lsx) (d : model) (r m : nat) (s : lsq) (D Z : mat) : Prop := {
  rd_i : sinv d; rd_ne : m_infer d <> []; rd_s : m_solver d = Some s; rd_w : winv X s; rd_c : clean X s D Z; rd_r : m_r d = Some r; rd_m : m_m d = Some m; rd_pos : 0 < r;
  rd_Z : nrows Z = r; rd_D : ncols D = lsumn (map (wd r m (m_ops d)) (m_infer d)) }.
Lemma not_intrusive d : sinv d -> m_intrusive d = false -> m_infer d <> [].
Proof. intros HI Hi Hx. rewrite (si_intr d HI), Hx in Hi. discriminate. Qed.
Lemma trained_ready X d s O : lsx_ok X -> reach X d -> check_trained d = Ok tt -> m_intrusive d = false -> m_solver d = Some s -> lsq_solve X s = Ok O ->
  exists r m D Z, ready X d r m s D Z.
Proof. intros HX HR HT Hi Es EO. assert (H := reach_minv X d HX HR). assert (HI := mi_s X d H). assert (Hne := not_intrusive d HI Hi). assert (HA := trained_allcal d HT).
  destruct (mi_t X d H HA Hne s Es) as [Hn|(D & Z & r & m & HC & Er & Em & HZ & HD)]. { destruct (nodata_solve X s Hn) as (e & Ee). congruence. }
  destruct (allcal_dims d HI HA) as (r1 & m1 & Hr & Er1 & _). exists r, m, D, Z. constructor; auto. { apply (mi_w X d H); auto. } congruence. Qed.
Lemma fitted_ready X d r m k Q Z U inputs : fitted X d r m k Q Z U inputs -> exists mm s D L, ready X d r mm s D L.
Proof. intros H. destruct (fitted_mm _ _ _ _ _ _ _ _ _ H) as [mm Em]. destruct (ft_solver _ _ _ _ _ _ _ _ _ H) as (s & L & Es & HW & HC & HL & _).
  assert (HI := ft_inv _ _ _ _ _ _ _ _ _ H). assert (Hne := ft_ne _ _ _ _ _ _ _ _ _ H). destruct (ft_dims _ _ _ _ _ _ _ _ _ H) as (Hr & Hm & Hk). destruct (ft_data _ _ _ _ _ _ _ _ _ H) as (HQ & HZ & HU).
  exists mm, s, (hstack (map (dblock Q U (m_ops d)) (m_infer d))), L. constructor; auto. { apply (ft_r _ _ _ _ _ _ _ _ _ H). } { apply (is_mat_nrows r k); auto. }
  rewrite (map_ext _ _ (width_m _ _ _ _ _ _ _ _ _ mm H Em)). destruct HC as [(k' & w' & r' & Hk' & Hw' & Hr' & HD & _) _].
  assert (HD2 : is_mat k (lsumn (map (wd r m (m_ops d)) (m_infer d))) (hstack (map (dblock Q U (m_ops d)) (m_infer d)))) by (apply is_mat_hstack; [apply (dblocks r m k Q U (m_ops d) (m_infer d) Hr Hm HQ HU (fun a => sinv_lt d a HI))|destruct (m_infer d); cbn; congruence]).
  eapply ncols_is_mat; eauto. Qed.

(* ---- the posterior ---- *)
Lemma ready_posterior X MX d r m s D Z p : lsx_ok X -> inverts MX -> ready X d r m s D Z -> posterior_of X MX d = Ok p ->
  is_posterior s p /\ lsq_solve X s = Ok (po_means p) /\ po_prec p = true /\ is_mat r (ncols D) (po_means p) /\ length (po_covs p) = r.
Proof. intros HX HM HR E. unfold posterior_of in E. rewrite (rd_s _ _ _ _ _ _ _ HR) in E. destruct (lsq_posterior X s) as [[O Ps]|] eqn:EP; [|discriminate]. cbn [bind fst snd] in E.
  assert (HC := rd_c _ _ _ _ _ _ _ HR). assert (ES := posterior_solve _ _ _ _ EP). destruct (lsq_solve_clean X s D Z O HX HC ES) as (HO & Hmin).
  destruct (posterior_clean X s D Z O Ps HX HC EP) as (Hd & pen & Hpen & HL & HP). destruct (post_init_inv MX O Ps p E) as (<- & Hprec & _ & Hcovs & Hpos & Hcov).
  assert (HLO : length (po_means p) = nrows Z) by apply HO. destruct HC as [(k & w & r' & HDim) _]. assert (HDim' := HDim). destruct HDim' as (Hk & Hw & Hr' & HD & HZ).
  assert (Ek : nrows D = k) by (eapply is_mat_nrows; eauto). assert (Ew : ncols D = w) by (eapply ncols_is_mat; eauto). assert (Er : nrows Z = r') by (eapply is_mat_nrows; eauto).
  assert (HZr := rd_Z _ _ _ _ _ _ _ HR). split; [|split; auto; split; auto; split; [congruence|congruence]].
  exists D, Z, pen. split; auto. split; auto. cbn zeta. split; [congruence|]. split; auto. split; [congruence|]. intros i Hi. destruct (HP i Hi) as (Hv & HPm & HPv). split; auto.
  assert (Hw' : 0 < ncols D) by lia. destruct (HM (ncols D) _ _ Hw' HPm (Hcov i ltac:(lia))) as (HCm & HCv). split; auto. intros a b Ha Hb. specialize (HCv a b Ha Hb).
  set (v := ((misfit (nrows D) (ncols D) D Z (po_means p) i + pen (po_means p) i) / INR (nrows D))%R) in *.
  transitivity (v * bsum (ncols D) (fun l => (mget (nth i Ps []) a l * mget (nth i (po_covs p) []) l b)%R))%R; [|rewrite HCv; destruct (a =? b); ring].
  rewrite <- bsum_scal_l. apply bsum_ext. intros l Hl. rewrite HPv by auto. field. lra. Qed.

(* ---- drawing ---- *)
Definition akin (d d1 : model) : Prop := exists l, d1 = with_ops l d /\ like (m_infer d) l (m_ops d).
Lemma with_ops_id d : with_ops (m_ops d) d = d.
Proof. destruct d; reflexivity. Qed.
Lemma akin_refl d : akin d d.
Proof. exists (m_ops d). split; [symmetry; apply with_ops_id|apply like_refl]. Qed.
Lemma extract_akin d d1 A d2 x : akin d d1 -> extract_drawn d1 (DArray A) = (d2, x) -> akin d d2 /\ snd (extract_drawn d (DArray A)) = x /\ (x = Ok tt -> extract_drawn d (DArray A) = (d2, x)).
Proof. intros (l & -> & Hl) E. cbn [extract_drawn with_ops m_r m_m m_infer m_ops] in *. destruct (extract_det (m_r d) (m_m d) A (m_infer d) 0 _ _ Hl) as (D1 & D2).
  assert (D3 := extract_like (m_r d) (m_m d) A (m_infer d) (m_infer d) (incl_refl _) 0 l).
  destruct (extract (m_r d) (m_m d) A 0 (m_infer d) l) as [l1 y1], (extract (m_r d) (m_m d) A 0 (m_infer d) (m_ops d)) as [l2 y2]. cbn [fst snd] in *. subst y2. injection E as <- <-.
  split; [exists l1; split; auto; eapply like_trans; eauto|]. split; auto. intros ->. rewrite D2 by auto. reflexivity. Qed.

Lemma known_wf d r m i : sinv d -> m_r d = Some r -> m_m d = Some m -> In i (m_known d) -> exists o, nth_error (m_ops d) i = Some o /\ sized r m o.
Proof. intros HI Er Em Hi. destruct (si_known d HI i Hi) as (o & e & Eo & Ee). exists o. split; auto. assert (Hino := nth_error_In _ _ Eo). assert (HV := si_valid d HI o Hino). exists e. split; auto.
  assert (Hrow : op_rows e = r). { assert (Hx := si_r d HI e). rewrite Er in Hx. assert (Some r = Some (op_rows e)); [apply Hx|congruence]. apply in_entries_of. eauto. }
  destruct (valid_wf o e m HV Ee) as (_ & Hc & Hw). { intros Ht. assert (Hx := si_m d HI o e Hino Ht Ee). congruence. } rewrite Hrow in Hw. auto. Qed.
Lemma ready_extract X d r m s D Z A : ready X d r m s D Z -> is_mat r (ncols D) A -> exists d', extract_drawn d (DArray A) = (d', Ok tt) /\ carries d A d' /\ akin d d'.
Proof. intros HR HA. assert (HI := rd_i _ _ _ _ _ _ _ HR). assert (Hne := rd_ne _ _ _ _ _ _ _ HR). assert (Hr := rd_pos _ _ _ _ _ _ _ HR). assert (Er := rd_r _ _ _ _ _ _ _ HR). assert (Em := rd_m _ _ _ _ _ _ _ HR).
  rewrite (rd_D _ _ _ _ _ _ _ HR) in HA. destruct (extract_distributed d r m A HI Hr Hne Er Em HA) as (l & El & HC & HD & HO).
  assert (EX : extract_drawn d (DArray A) = (with_ops l d, Ok tt)) by (cbn [extract_drawn]; rewrite Er, Em, El; reflexivity).
  exists (with_ops l d). split; auto. split; [|apply (extract_akin d d A _ _ (akin_refl d) EX)].
  split; [apply (candidate_roles r m); auto|]. cbn [with_ops m_solver m_r m_m m_frozen m_intrusive]. split; auto. split; auto. split; auto. split; auto. split; auto. split; [|exists r, m; auto].
  rewrite (candidate_opmatrix_t d r m l); auto. { congruence. } { congruence. }
  apply Forall_forall. intros o Ho. apply In_nth_error in Ho. destruct Ho as [i Ei]. destruct HC as (HL & HK & HIn).
  assert (Hlt : i < length (m_ops d)) by (rewrite <- HL; apply nth_error_Some; congruence). apply (sinv_in d i HI) in Hlt. destruct Hlt as [Hx|Hx].
  - destruct (HIn i Hx) as (o1 & e & E1 & E2 & E3 & E4). rewrite Ei in E2. injection E2 as ->. exists e. auto.
  - rewrite HK in Ei by auto. destruct (known_wf d r m i HI Er Em Hx) as (o' & Eo' & Hs). congruence. Qed.

Section Draw.
  Context {G : Type}.
  Variable normal : vec -> mat -> G -> G * vec.
  Hypothesis HN : keeps_size normal.
  Lemma draw_rows_ok l : forall g g' xs, draw_rows normal l g = (g', xs) -> length xs = length l /\
    (exists gs, gs 0 = g /\ gs (length xs) = g' /\ forall i, i < length xs -> normal (fst (nth i l ([], []))) (snd (nth i l ([], []))) (gs i) = (gs (S i), nth i xs [])) /\
    forall i, i < length xs -> length (nth i xs []) = length (fst (nth i l ([], []))).
  Proof. induction l as [|[v C] l IH]; intros g g' xs E; cbn [draw_rows] in E.
    - injection E as <- <-. cbn. split; auto. split; [|intros; lia]. exists (fun _ => g). split; auto. split; auto. intros; lia.
    - assert (HL := HN v C g). destruct (normal v C g) as [g1 x] eqn:E1. destruct (draw_rows normal l g1) as [g2 t] eqn:E2. injection E as <- <-. destruct (IH _ _ _ E2) as (H1 & (gs & A & B & H2) & H3). cbn [length snd] in *. split; [lia|]. split.
      + exists (fun i => match i with 0 => g | S j => gs j end). split; auto. split; auto. intros [|i] Hi; cbn [nth fst snd]; [congruence|]. apply H2. lia.
      + intros [|i] Hi; cbn [nth fst]; auto. apply H3. lia. Qed.
  Lemma rvs_ok p r w g : po_prec p = true -> is_mat r w (po_means p) -> length (po_covs p) = r -> 0 < r ->
    exists A g', rvs normal p g = (g', Ok (DArray A)) /\ samples normal p g A g' /\ is_mat r w A.
  Proof. intros Hp HM HC Hr. unfold rvs. destruct (draw_rows normal (combine (po_means p) (po_covs p)) g) as [g' xs] eqn:E. destruct (draw_rows_ok _ _ _ _ E) as (H1 & (gs & A & B & H2) & H3).
    assert (HLm : length (po_means p) = r) by apply HM. rewrite combine_length in H1. rewrite Hp. exists xs, g'. assert (HS : same_sizes (po_means p) = true).
    { unfold same_sizes. destruct (po_means p) as [|v t] eqn:Et; auto. apply forallb_forall. intros x Hx. apply Nat.eqb_eq. destruct HM as [_ HF]. rewrite Forall_forall in HF. rewrite (HF x Hx), (HF v); auto. left; auto. }
    rewrite HS. split; auto. assert (HNth : forall i, i < length xs -> nth i (combine (po_means p) (po_covs p)) ([], []) = (nth i (po_means p) [], nth i (po_covs p) [])) by (intros; apply combine_nth; lia). split.
    - split; [lia|]. exists gs. split; auto. split; auto. intros i Hi. specialize (H2 i Hi). rewrite HNth in H2 by auto. exact H2.
    - split; [lia|]. apply Forall_forall. intros x Hx. apply (In_nth _ _ []) in Hx. destruct Hx as (i & Hi & <-). rewrite H3 by auto. rewrite HNth by auto. cbn [fst].
      destruct HM as [_ HF]. rewrite Forall_forall in HF. apply HF, nth_In. lia. Qed.

  Variables (X : lsx) (MX : mvn) (d : model) (r m : nat) (s : lsq) (D Z : mat) (p : post).
  Hypotheses (HX : lsx_ok X) (HM : inverts MX) (HR : ready X d r m s D Z) (HP : posterior_of X MX d = Ok p).
  Lemma draw_ok d1 g : akin d d1 -> exists A g' d2, draw normal (Build_bstate d1 (Some p) g) = (Build_bstate d2 (Some p) g', Ok tt) /\ samples normal p g A g' /\ carries d A d2 /\ akin d d2.
  Proof. intros Hd. destruct (ready_posterior X MX d r m s D Z p HX HM HR HP) as (_ & _ & H1 & H2 & H3). destruct (rvs_ok p r (ncols D) g H1 H2 H3 (rd_pos _ _ _ _ _ _ _ HR)) as (A & g' & E & HS & HA).
    destruct (ready_extract X d r m s D Z A HR HA) as (d2 & E2 & HC & HK). destruct (extract_drawn d1 (DArray A)) as [d3 x] eqn:E3. destruct (extract_akin d d1 A d3 x Hd E3) as (K1 & K2 & K3). rewrite E2 in K2, K3. cbn [snd] in K2. subst x.
    specialize (K3 eq_refl). injection K3 as <-. exists A, g', d2. unfold draw. cbn [bs_post bs_gen bs_model]. rewrite E, E3. auto. Qed.
  Lemma after_ok g s1 : after_draws normal (Build_bstate d (Some p) g) s1 -> akin d (bs_model s1) /\ bs_post s1 = Some p.
  Proof. induction 1 as [|s1 s2 x H [IH1 IH2] E]; [split; [apply akin_refl|auto]|]. destruct s1 as [d1 p1 g1]. cbn [bs_model bs_post] in *. subst p1. destruct (draw_ok d1 g1 IH1) as (A & g' & d2 & E' & _ & _ & HK).
    rewrite E in E'. injection E' as -> _. cbn. auto. Qed.
  Lemma akin_same d1 d2 g : akin d d1 -> akin d d2 -> draw normal (Build_bstate d1 (Some p) g) = draw normal (Build_bstate d2 (Some p) g).
  Proof. intros H1 H2. assert (K : forall d1, akin d d1 -> draw normal (Build_bstate d1 (Some p) g) = draw normal (Build_bstate d (Some p) g)); [|rewrite (K d1 H1), (K d2 H2); reflexivity].
    clear d1 d2 H1 H2. intros d1 H1. destruct (draw_ok d1 g H1) as (A & g' & d2 & E & HS & _). destruct (draw_ok d g (akin_refl d)) as (A' & g2 & d2' & E' & HS' & _).
    rewrite E, E'. unfold draw in E, E'. cbn [bs_post bs_gen bs_model] in E, E'. destruct (rvs normal p g) as [g3 [x|]]; [|discriminate].
    destruct x as [B|B|b B].
    - destruct (extract_drawn d1 (DArray B)) as [d3 y] eqn:E3. destruct (extract_drawn d (DArray B)) as [d4 y4] eqn:E4. injection E as <- <- ->. injection E' as <- <- ->. destruct (extract_akin d d1 B d3 _ H1 E3) as (_ & _ & K). specialize (K eq_refl). congruence.
    - exfalso. cbn in E'. injection E' as _ _ E'. destruct (m_infer d) eqn:Ei; [exact (rd_ne _ _ _ _ _ _ _ HR Ei)|discriminate].
    - exfalso. cbn in E'. injection E' as _ _ E'. destruct (m_infer d) eqn:Ei; [exact (rd_ne _ _ _ _ _ _ _ HR Ei)|discriminate]. Qed.
End Draw.
